(** src/utils/multi_objective.cpp and the reksum/weights part of
    include/pagmo/utils/multi_objective.hpp *)
From Coq Require Import List Bool Arith ZArith String.
From Verif Require Import Dbl Outcome StdSort Compare.
Import ListNotations.
Local Open Scope outcome_scope.

Notation vec := (list dbl) (only parsing).

(** multi_objective.cpp:104-112: the loop body of pareto_dominance, [found] is
    found_strictly_dominating_dimension. Lengths are equal when it is called. *)
Fixpoint pd_loop (found : bool) (o1 o2 : vec) : bool :=
  match o1, o2 with
  | x :: o1', y :: o2' =>
      if greater_than_f x y then false
      else if less_than_f x y then pd_loop true o1' o2'
      else pd_loop found o1' o2'
  | _, _ => found
  end.

(** multi_objective.cpp:97-113 *)
Definition pareto_dominance (obj1 obj2 : vec) : outcome bool :=
  if negb (Nat.eqb (List.length obj1) (List.length obj2)) then Throw InvalidArgument
  else Ok (pd_loop false obj1 obj2).

(** multi_objective.cpp:139-140: all_of(size == M) *)
Definition all_size {A} (M : nat) (l : list (list A)) : bool :=
  forallb (fun item => Nat.eqb (List.length item) M) l.

(** Component [i] of a vector whose size has been checked to exceed [i]. *)
Definition cmpn (v : vec) (i : nat) : dbl := nth i v NaN.
(** Point [i] of a set, [i] a valid index. *)
Definition pnt (pts : list vec) (i : nat) : vec := nth i pts [].

(** multi_objective.cpp:153-158: comparator of the sort. *)
Definition nd2d_cmp (pts : list vec) (i1 i2 : nat) : bool :=
  if equal_to_f (cmpn (pnt pts i1) 0) (cmpn (pnt pts i2) 0)
  then less_than_f (cmpn (pnt pts i1) 1) (cmpn (pnt pts i2) 1)
  else less_than_f (cmpn (pnt pts i1) 0) (cmpn (pnt pts i2) 0).

(** multi_objective.cpp:160-166: is [i] dominated by something in the front? *)
Fixpoint nd2d_flag (pts : list vec) (front : list nat) (i : nat) : outcome bool :=
  match front with
  | [] => Ok false
  | j :: front' =>
      b <- pareto_dominance (pnt pts j) (pnt pts i) ;;
      if b : bool then Ok true else nd2d_flag pts front' i
  end.

(** multi_objective.cpp:130-172 *)
Definition non_dominated_front_2d (srt : sorter) (pts : list vec) : outcome (list nat) :=
  match pts with
  | [] => Ok []
  | p0 :: _ =>
      let M := List.length p0 in
      throw_if (negb (all_size M pts)) InvalidArgument ;;;
      throw_if (negb (Nat.eqb M 2)) InvalidArgument ;;;
      idx <- std_sort srt (nd2d_cmp pts) (iota (List.length pts)) ;;
      mfold (fun front i =>
               flag <- nd2d_flag pts front i ;;
               Ok (if flag : bool then front else front ++ [i])) [] idx
  end.

(** ** fast_non_dominated_sorting, multi_objective.cpp:200-257 *)

(** dom_list and dom_count. Counts are unsigned in C++; [Z] keeps a decrement of
    zero distinct from zero, like the wrap-around does. *)
Record dom_state := { dl : list (list nat); dc : list Z }.

(** multi_objective.cpp:218-226: body of the inner loop *)
Definition fnds_inner (pts : list vec) (i : nat) (s : dom_state) (j : nat) : outcome dom_state :=
  b <- pareto_dominance (pnt pts i) (pnt pts j) ;;
  if b : bool then
    Ok {| dl := upd_at (fun l => l ++ [j]) (dl s) i; dc := upd_at (fun c => (c + 1)%Z) (dc s) j |}
  else
    b' <- pareto_dominance (pnt pts j) (pnt pts i) ;;
    if b' : bool then
      Ok {| dl := upd_at (fun l => l ++ [i]) (dl s) j; dc := upd_at (fun c => (c + 1)%Z) (dc s) i |}
    else Ok s.

(** multi_objective.cpp:215-227 *)
Definition fnds_outer (pts : list vec) (s : dom_state) (i : nat) : outcome dom_state :=
  let s0 := {| dl := upd (dl s) i []; dc := upd (dc s) i 0%Z |} in
  mfold (fnds_inner pts i) s0 (seq 0 i).

(** Peeling state: dom_count_copy, non_dom_rank, next_front. *)
Record peel_state := { pc : list Z; prk : list nat; pnext : list nat }.

(** multi_objective.cpp:241-247: one decrement, [q] = dom_list[current_front[p]][q] *)
Definition peel_one (front_counter : nat) (s : peel_state) (q : nat) : peel_state :=
  let pc' := upd_at (fun c => (c - 1)%Z) (pc s) q in
  if (nth q pc' (-1) =? 0)%Z
  then {| pc := pc'; prk := upd (prk s) q (front_counter + 1); pnext := pnext s ++ [q] |}
  else {| pc := pc'; prk := prk s; pnext := pnext s |}.

(** multi_objective.cpp:239-248: the two for loops over the current front *)
Definition peel_front (doml : list (list nat)) (fc : nat) (cur : list nat) (c : list Z) (rk : list nat) : peel_state :=
  fold_left (fun s p => fold_left (peel_one fc) (nth p doml []) s) cur
            {| pc := c; prk := rk; pnext := [] |}.

(** multi_objective.cpp:238-254: the while loop, [fuel] bounds the iterations *)
Fixpoint peel_loop (fuel : nat) (doml : list (list nat)) (fc : nat) (cur : list nat)
         (c : list Z) (rk : list nat) (fronts : list (list nat)) : outcome (list (list nat) * list nat) :=
  match cur with
  | [] => Ok (fronts, rk)
  | _ =>
      match fuel with
      | O => NoFuel
      | S fuel' =>
          let s := peel_front doml fc cur c rk in
          let fronts' := match pnext s with [] => fronts | _ => fronts ++ [pnext s] end in
          peel_loop fuel' doml (fc + 1) (pnext s) (pc s) (prk s) fronts'
      end
  end.

Record fnds_result := {
  fr_fronts : list (list nat);
  fr_dom_list : list (list nat);
  fr_dom_count : list Z;
  fr_rank : list nat
}.

(** multi_objective.cpp:200-257 *)
Definition fast_non_dominated_sorting (pts : list vec) : outcome fnds_result :=
  let N := List.length pts in
  throw_if (Nat.ltb N 2) InvalidArgument ;;;
  s <- mfold (fnds_outer pts) {| dl := repeat [] N; dc := repeat 0%Z N |} (seq 0 N) ;;
  (* 228-233: the first front; non_dom_rank is value-initialised to 0 *)
  let front0 := filter (fun i => (nth i (dc s) (-1) =? 0)%Z) (seq 0 N) in
  r <- peel_loop (S N) (dl s) 0 front0 (dc s) (repeat 0 N) [front0] ;;
  Ok {| fr_fronts := fst r; fr_dom_list := dl s; fr_dom_count := dc s; fr_rank := snd r |}.

(** ** crowding_distance, multi_objective.cpp:280-315 *)

(** multi_objective.cpp:304-306 *)
Definition crowd_cmp (pts : list vec) (i : nat) (i1 i2 : nat) : bool :=
  less_than_f (cmpn (pnt pts i1) i) (cmpn (pnt pts i2) i).

(** multi_objective.cpp:310-312, [df] of line 309 *)
Definition crowd_step (pts : list vec) (i : nat) (idx : list nat) (df : dbl) (ret : vec) (j : nat) : vec :=
  upd_at (fun v => dadd v (ddiv (dsub (cmpn (pnt pts (nth (j + 1) idx 0)) i)
                                      (cmpn (pnt pts (nth (j - 1) idx 0)) i)) df))
         ret (nth j idx 0).

(** multi_objective.cpp:303-313: one objective; the state is (indexes, retval) *)
Definition crowd_obj (srt : sorter) (pts : list vec) (st : list nat * vec) (i : nat) : outcome (list nat * vec) :=
  let N := List.length pts in
  idx <- std_sort srt (crowd_cmp pts i) (fst st) ;;
  let first := nth 0 idx 0 in
  let last := nth (N - 1) idx 0 in
  let ret1 := upd (upd (snd st) first PInf) last PInf in
  let df := dsub (cmpn (pnt pts last) i) (cmpn (pnt pts first) i) in
  Ok (idx, fold_left (crowd_step pts i idx df) (seq 1 (N - 2)) ret1).

Definition crowding_distance (srt : sorter) (pts : list vec) : outcome vec :=
  let N := List.length pts in
  throw_if (Nat.ltb N 2) InvalidArgument ;;;
  let M := List.length (pnt pts 0) in
  throw_if (Nat.ltb M 2) InvalidArgument ;;;
  throw_if (negb (all_size M pts)) InvalidArgument ;;;
  st <- mfold (crowd_obj srt pts) (iota N, repeat dzero N) (seq 0 M) ;;
  Ok (snd st).

(** ** select_best_N_mo, multi_objective.cpp:344-396 *)

(** multi_objective.cpp:365-377: fill with whole fronts; returns (retval,
    front_id, finished) *)
Fixpoint fill_fronts (N : nat) (fronts : list (list nat)) (ret : list nat) (fid : nat) : list nat * nat * bool :=
  match fronts with
  | [] => (ret, fid, false)
  | front :: fronts' =>
      if Nat.leb (List.length ret + List.length front) N then
        let ret' := ret ++ front in
        if Nat.eqb (List.length ret') N then (ret', fid, true)
        else fill_fronts N fronts' ret' (fid + 1)
      else (ret, fid, false)
  end.

Definition select_best_N_mo (srt : sorter) (pts : list vec) (N : nat) : outcome (list nat) :=
  if Nat.eqb N 0 then Ok []
  else if Nat.eqb (List.length pts) 0 then Ok []
  else if Nat.eqb (List.length pts) 1 then Ok [0]
  else if Nat.leb (List.length pts) N then Ok (iota (List.length pts))
  else
    t <- fast_non_dominated_sorting pts ;;
    match fill_fronts N (fr_fronts t) [] 0 with
    | (ret, _, true) => Ok ret
    | (ret, fid, false) =>
        front <- vget (fr_fronts t) fid ;;
        cds <- crowding_distance srt (map (pnt pts) front) ;;
        idxs <- std_sort srt (fun a b => greater_than_f (cmpn cds a) (cmpn cds b)) (iota (List.length front)) ;;
        let remaining := N - List.length ret in
        sel <- mmap (fun i => k <- vget idxs i ;; vget front k) (seq 0 remaining) ;;
        Ok (ret ++ sel)
    end.

(** ** sort_population_mo, multi_objective.cpp:425-465 *)

(** multi_objective.cpp:441-455 *)
Definition crowd_fill (srt : sorter) (pts : list vec) (crowding : vec) (front : list nat) : outcome vec :=
  if Nat.eqb (List.length front) 1 then Ok (upd crowding (nth 0 front 0) dzero)
  else
    tmp <- crowding_distance srt (map (pnt pts) front) ;;
    Ok (fold_left (fun c i => upd c (nth i front 0) (cmpn tmp i)) (seq 0 (List.length front)) crowding).

(** multi_objective.cpp:457-463 *)
Definition sort_mo_cmp (rank : list nat) (crowding : vec) (i1 i2 : nat) : bool :=
  if Nat.eqb (nth i1 rank 0) (nth i2 rank 0)
  then greater_than_f (cmpn crowding i1) (cmpn crowding i2)
  else Nat.ltb (nth i1 rank 0) (nth i2 rank 0).

Definition sort_population_mo (srt : sorter) (pts : list vec) : outcome (list nat) :=
  if Nat.eqb (List.length pts) 0 then Ok []
  else if Nat.eqb (List.length pts) 1 then Ok [0]
  else
    t <- fast_non_dominated_sorting pts ;;
    crowding <- mfold (crowd_fill srt pts) (repeat dzero (List.length pts)) (fr_fronts t) ;;
    std_sort srt (sort_mo_cmp (fr_rank t) crowding) (iota (List.length pts)).

(** ** ideal and nadir, multi_objective.cpp:480-541 *)

(** Dereferencing the iterator of std::min_element / std::max_element; end() of
    an empty range must not be dereferenced. *)
Definition deref {A} (l : list A) (i : option nat) : outcome A :=
  match i with Some i => vget l i | None => UB end.

Definition ideal (pts : list vec) : outcome vec :=
  match pts with
  | [] => Ok []
  | p0 :: _ =>
      let M := List.length p0 in
      throw_if (negb (all_size M pts)) InvalidArgument ;;;
      mmap (fun i =>
              p <- deref pts (min_element (fun f1 f2 => less_than_f (cmpn f1 i) (cmpn f2 i)) pts) ;;
              vget p i) (seq 0 M)
  end.

Definition nadir (pts : list vec) : outcome vec :=
  match pts with
  | [] => Ok []
  | p0 :: _ =>
      let M := List.length p0 in
      t <- fast_non_dominated_sorting pts ;;
      pareto_idx <- vget (fr_fronts t) 0 ;;
      let nd := map (pnt pts) pareto_idx in
      mmap (fun i =>
              p <- deref nd (max_element (fun f1 f2 => less_than_f (cmpn f1 i) (cmpn f2 i)) nd) ;;
              vget p i) (seq 0 M)
  end.

(** ** decompose_objectives, multi_objective.cpp:582-639 *)

Inductive dmethod := Weighted | Tchebycheff | BI | OtherMethod.

(** 1e-4 as a double: 0x3F1A36E2EB1C432D *)
Definition d1em4 : dbl := Fin ((2 ^ 52 + 2875098002113325) * 2 ^ 1008)%Z.
Definition d5 : dbl := d_of_Z 5.

(** multi_objective.cpp:604-606 *)
Fixpoint dec_weighted (fd : dbl) (f w : vec) : dbl :=
  match f, w with
  | fi :: f', wi :: w' => dec_weighted (dadd fd (dmul wi fi)) f' w'
  | _, _ => fd
  end.
(** multi_objective.cpp:609-616 *)
Fixpoint dec_tcheb (fd : dbl) (f w z : vec) : dbl :=
  match f, w, z with
  | fi :: f', wi :: w', zi :: z' =>
      let fixed := if deq wi dzero then d1em4 else wi in
      let tmp := dmul fixed (dabs (dsub fi zi)) in
      dec_tcheb (if dgt tmp fd then tmp else fd) f' w' z'
  | _, _, _ => fd
  end.
(** multi_objective.cpp:621-624; std::pow(x,2) is taken to be x*x *)
Fixpoint bi_d1 (d1 wn : dbl) (f w z : vec) : dbl * dbl :=
  match f, w, z with
  | fi :: f', wi :: w', zi :: z' =>
      bi_d1 (dadd d1 (dmul (dsub fi zi) wi)) (dadd wn (dmul wi wi)) f' w' z'
  | _, _, _ => (d1, wn)
  end.
(** multi_objective.cpp:629-631 *)
Fixpoint bi_d2 (d2 d1 wn : dbl) (f w z : vec) : dbl :=
  match f, w, z with
  | fi :: f', wi :: w', zi :: z' =>
      let t := dsub fi (dadd zi (ddiv (dmul d1 wi) wn)) in
      bi_d2 (dadd d2 (dmul t t)) d1 wn f' w' z'
  | _, _, _ => d2
  end.

Definition decompose_objectives (f w z : vec) (m : dmethod) : outcome vec :=
  throw_if (negb (Nat.eqb (List.length w) (List.length f))) InvalidArgument ;;;
  throw_if (negb (Nat.eqb (List.length z) (List.length f))) InvalidArgument ;;;
  throw_if (Nat.eqb (List.length f) 0) InvalidArgument ;;;
  match m with
  | Weighted => Ok [dec_weighted dzero f w]
  | Tchebycheff => Ok [dec_tcheb dzero f w z]
  | BI =>
      let '(d1s, wn2) := bi_d1 dzero dzero f w z in
      let wn := dsqrt wn2 in
      let d1 := ddiv d1s wn in
      let d2 := dsqrt (bi_d2 dzero d1 wn f w z) in
      Ok [dadd d1 (dmul d5 d2)]
  | OtherMethod => Throw InvalidArgument
  end.
