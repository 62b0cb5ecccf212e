(** Hypervolume computation: hv_algorithm, hv2d, hv3d, hvwfg and the hypervolume
    class (src/utils/hypervolume.cpp, src/utils/hv_algos/).

    The code is written once over an arithmetic [A] and used with two of them:
    [Dar], IEEE doubles, and [Zar], exact integers.  Every finite double is an
    integer multiple of 2^-1074, so [Zar] is the same program without rounding.

    Coordinates are read with [crd], a total function; the functions that are
    entered from outside first check that all points have as many coordinates as
    the code is going to read, and otherwise yield undefined behaviour (an
    out-of-range read).  Sizes are natural numbers.  The flag copy_points is left
    at its default (true), so that algorithms work on a copy of the points. *)
From Coq Require Import List Bool Arith ZArith.
From Verif Require Import Dbl Outcome StdSort.
Import ListNotations.
Local Open Scope outcome_scope.

Record arith (N : Type) := {
  azero : N; aone : N; amaxv : N;       (* 0.0, 1.0, numeric_limits<double>::max() *)
  aadd : N -> N -> N; asub : N -> N -> N; amul : N -> N -> N; aneg : N -> N; aabs : N -> N;
  alt : N -> N -> bool; ale : N -> N -> bool; aeq : N -> N -> bool
}.
Arguments azero {N}. Arguments aone {N}. Arguments amaxv {N}. Arguments aadd {N}. Arguments asub {N}. Arguments amul {N}.
Arguments aneg {N}. Arguments aabs {N}. Arguments alt {N}. Arguments ale {N}. Arguments aeq {N}.

Definition Dar : arith dbl := Build_arith dbl dzero done dbl_max dadd dsub dmul dneg dabs dlt dle deq.
(** Exact arithmetic; the largest representable number is a parameter. *)
Definition Zar (m : Z) : arith Z := Build_arith Z 0%Z 1%Z m Z.add Z.sub Z.mul Z.opp Z.abs Z.ltb Z.leb Z.eqb.

Section Hv.
Context {N : Type} (A : arith N) (srt : sorter).

Definition crd (p : list N) (i : nat) : N := nth i p (azero A).
(** std::max *)
Definition amax (a b : N) : N := if alt A a b then b else a.

(** All points have at least [d] coordinates. *)
Definition dims_at_least (d : nat) (pts : list (list N)) : bool := forallb (fun p => Nat.leb d (length p)) pts.

(** volume_between on vectors, hv_algorithm.cpp:68-78 ([d] = dim_bound, or a.size()) *)
Definition vol_vec (a b : list N) (d : nat) : N :=
  let v := fold_left (fun v i => amul A v (asub A (crd a i) (crd b i))) (seq 0 d) (aone A) in
  if alt A v (azero A) then aneg A v else v.
(** volume_between on arrays, hv_algorithm.cpp:90-97: from the last coordinate down *)
Definition vol_ptr (a b : list N) (d : nat) : N :=
  let v := fold_left (fun v i => amul A v (asub A (crd b i) (crd a i))) (rev (seq 0 d)) (aone A) in
  if alt A v (azero A) then aneg A v else v.

(** ** hv2d *)
(** The sweep of hv2d::compute, hv_hv2d.cpp:73-83 and :115-125: [prev] is
    points[idx], [rest] the points after it. *)
Fixpoint hv2d_sweep (r : list N) (prev : list N) (rest : list (list N)) (hv w : N) : N :=
  match rest with
  | [] => aadd A hv (amul A (asub A (crd r 1) (crd prev 1)) w)
  | p :: rest' =>
      hv2d_sweep r p rest' (aadd A hv (amul A (asub A (crd p 1) (crd prev 1)) w)) (amax w (asub A (crd r 0) (crd p 0)))
  end.
Definition hv2d_body (sorting : bool) (pts : list (list N)) (r : list N) : outcome N :=
  s <- (if sorting then std_sort srt (fun a b => alt A (crd a 1) (crd b 1)) pts else Ok pts) ;;
  match s with
  | [] => Ok (azero A)
  | p :: rest => Ok (hv2d_sweep r p rest (azero A) (asub A (crd r 0) (crd p 0)))
  end.
(** hv2d::compute on vectors, hv_hv2d.cpp:59-86.  The one-point case multiplies as
    many differences as the point has coordinates. *)
Definition hv2d_compute (sorting : bool) (pts : list (list N)) (r : list N) : outcome N :=
  match pts with
  | [] => Ok (azero A)
  | [p] => if Nat.leb (length p) (length r) then Ok (vol_vec p r (length p)) else UB
  | _ => if dims_at_least 2 (r :: pts) then hv2d_body sorting pts r else UB
  end.
(** hv2d::compute on arrays, hv_hv2d.cpp:100-123 *)
Definition hv2d_compute_ptr (sorting : bool) (pts : list (list N)) (r : list N) : outcome N :=
  match pts with
  | [] => Ok (azero A)
  | [p] => Ok (vol_ptr p r 2)
  | _ => hv2d_body sorting pts r
  end.

(** ** hv3d::compute, hv_hv3d.cpp:107-155 *)
(** T is the multiset in its order (first coordinate descending).  insert puts a
    new element after the elements that do not compare greater: [hv3d_split] gives
    the elements before and after the new one. *)
Fixpoint hv3d_split (x : N) (T : list (list N)) : list (list N) * list (list N) :=
  match T with
  | [] => ([], [])
  | e :: T' => if alt A (crd e 0) x then ([], T) else let (b, a) := hv3d_split x T' in (e :: b, a)
  end.
(** The while loop, :139-144, walking back from the new element: [rb] holds the
    elements before it, nearest first. *)
Fixpoint hv3d_pops (py qy : N) (area : N) (rb : list (list N)) : outcome (N * list (list N)) :=
  match rb with
  | [] => UB
  | e :: rb' =>
      if ale A py (crd e 1) then
        match rb' with
        | [] => UB
        | e' :: _ => hv3d_pops py qy (asub A area (aabs A (amul A (asub A (crd e 0) (crd e' 0)) (asub A (crd e 1) qy)))) rb'
        end
      else Ok (area, rb)
  end.
(** One iteration of the loop, :128-148; the state is (V, A, z3, T). *)
Definition hv3d_step (st : N * N * N * list (list N)) (p : list N) : outcome (N * N * N * list (list N)) :=
  let '(v, area, z3, T) := st in
  let (bef, aft) := hv3d_split (crd p 0) T in
  match aft with
  | [] => UB                                  (* q == T.end() is dereferenced *)
  | q :: _ =>
      if ale A (crd q 1) (crd p 1) then Ok st
      else
        let v' := aadd A v (amul A area (aabs A (asub A z3 (crd p 2)))) in
        '(a', rb) <- hv3d_pops (crd p 1) (crd q 1) area (rev bef) ;;
        match rb with
        | [] => UB
        | e :: _ =>
            Ok (v', aadd A a' (aabs A (amul A (asub A (crd p 0) (crd e 0)) (asub A (crd p 1) (crd q 1)))), crd p 2,
                rev rb ++ p :: aft)
        end
  end.
(** Insertion without the rest, for the initial elements *)
Definition hv3d_insert (T : list (list N)) (p : list N) : list (list N) :=
  let (b, a) := hv3d_split (crd p 0) T in b ++ p :: a.
Definition hv3d_compute (sorting : bool) (pts : list (list N)) (r : list N) : outcome N :=
  if negb (dims_at_least 3 (r :: pts)) then UB else
  s <- (if sorting then std_sort srt (fun a b => alt A (crd a 2) (crd b 2)) pts else Ok pts) ;;
  match s with
  | [] => UB                                  (* points[0] *)
  | p0 :: rest =>
      let sA := [crd r 0; aneg A (amaxv A); crd r 2] in
      let sB := [aneg A (amaxv A); crd r 1; crd r 2] in
      let T := hv3d_insert (hv3d_insert (hv3d_insert [] sA) sB) p0 in
      let area := aabs A (amul A (asub A (crd p0 0) (crd r 0)) (asub A (crd p0 1) (crd r 1))) in
      '(v, area', z3, _) <- mfold hv3d_step (azero A, area, crd p0 2, T) rest ;;
      Ok (aadd A v (amul A area' (aabs A (asub A z3 (crd r 2)))))
  end.

(** ** hvwfg *)
(** dom_cmp, hv_algorithm.cpp:276-296 (and :299-323) *)
Inductive dom_res := BDominatesA | ADominatesB | ABEqual | Incomparable.
Fixpoint dom_cmp_from (a b : list N) (is_ : list nat) : dom_res :=
  match is_ with
  | [] => ABEqual
  | i :: is' =>
      if alt A (crd b i) (crd a i) then
        if existsb (fun j => alt A (crd a j) (crd b j)) is' then Incomparable else BDominatesA
      else if alt A (crd a i) (crd b i) then
        if existsb (fun j => alt A (crd b j) (crd a j)) is' then Incomparable else ADominatesB
      else dom_cmp_from a b is'
  end.
Definition dom_cmp (a b : list N) (d : nat) : dom_res := dom_cmp_from a b (seq 0 d).

(** limitset, hv_hvwfg.cpp:153-214: [others] are the points idx >= begin_idx other
    than p, [s] the current slice.  The frame is the array of the points kept; the
    in-place compaction of :189-208 leaves the points not dominated by and not
    equal to the new one, in order, followed by the new one. *)
Definition limit_point (q p : list N) (s : nat) : list N := map (fun i => amax (crd q i) (crd p i)) (seq 0 s).
Definition limit_add (s : nat) (frame : list (list N)) (x : list N) : list (list N) :=
  if existsb (fun q => match dom_cmp x q s with BDominatesA => true | _ => false end) frame then frame
  else filter (fun q => match dom_cmp x q s with ADominatesB | ABEqual => false | _ => true end) frame ++ [x].
Definition limitset (others : list (list N)) (p : list N) (s : nat) : list (list N) :=
  fold_left (fun frame q => limit_add s frame (limit_point q p s)) others [].

(** cmp_points, hv_hvwfg.cpp:303-313 *)
Fixpoint cmp_points (s : nat) (a b : list N) : bool :=
  match s with
  | 0 => false
  | S i => if alt A (crd b i) (crd a i) then true else if alt A (crd a i) (crd b i) then false else cmp_points i a b
  end.

(** exclusive_hv, hv_hvwfg.cpp:217-229; [ls] is the limit set, [rec] is compute_hv
    at the current slice. *)
Definition exclusive_hv (rec : list (list N) -> outcome N) (s : nat) (r p : list N) (ls : list (list N)) : outcome N :=
  let h := vol_ptr p r s in
  match ls with
  | [] => Ok h
  | [q] => Ok (asub A h (vol_ptr q r s))
  | _ => v <- rec ls ;; Ok (asub A h v)
  end.

(** hypervolume(points, false).compute(r), as used by compute_hv when the stop
    dimension is greater than 2 (hv_hvwfg.cpp:257-268): hypervolume.cpp:203-228 and
    get_best_compute, :490-501.  [wfg2] is hvwfg(2)::compute. *)
Definition best_compute (wfg2 : list (list N) -> list N -> outcome N) (pts : list (list N)) (r : list N) : outcome N :=
  match length r with
  | 2 => hv2d_compute true pts r
  | 3 => hv3d_compute true pts r
  | _ => wfg2 pts r
  end.

(** compute_hv, hv_hvwfg.cpp:232-297, at slice [s] (m_current_slice).  The frame
    indices follow the slice, so that the recursion is on the slice.  [delegate] is
    what is called at the stop dimension. *)
Fixpoint compute_hv (delegate : list (list N) -> outcome N) (stop : nat) (r : list N) (s : nat) (pts : list (list N)) : outcome N :=
  match pts with
  | [p] => Ok (vol_ptr p r s)
  | [p; q] =>
      let isect := fold_left (fun v i => amul A v (asub A (crd r i) (amax (crd p i) (crd q i)))) (seq 0 s) (aone A) in
      Ok (asub A (aadd A (vol_ptr p r s) (vol_ptr q r s)) isect)
  | _ =>
      if Nat.eqb s stop then delegate pts
      else
        sorted <- std_sort srt (cmp_points s) pts ;;
        match s with
        | 0 => UB                               (* --m_current_slice wraps around *)
        | S s' =>
            (fix loop (l : list (list N)) (h : N) : outcome N :=
               match l with
               | [] => Ok h
               | p :: later =>
                   e <- exclusive_hv (compute_hv delegate stop r s') s' r p (limitset later p s') ;;
                   loop later (aadd A h (aabs A (amul A (asub A (crd p s') (crd r s')) e)))
               end) sorted (azero A)
        end
  end.

(** What compute_hv calls at the stop dimension, :252-268 *)
Definition wfg2_compute (pts : list (list N)) (r : list N) : outcome N :=
  if dims_at_least (length r) pts then compute_hv (fun ps => hv2d_compute_ptr true ps r) 2 r (length r) pts else UB.
Definition wfg_delegate (stop : nat) (r : list N) (pts : list (list N)) : outcome N :=
  match stop with
  | 2 => hv2d_compute_ptr true pts r
  | _ => best_compute wfg2_compute (map (firstn stop) pts) (firstn stop r)
  end.
(** hvwfg's constructor, hv_hvwfg.cpp:53-58 *)
Definition wfg_ctor (stop : nat) : outcome unit := throw_if (Nat.ltb stop 2) InvalidArgument.
(** hvwfg::compute, hv_hvwfg.cpp:64-70 *)
Definition wfg_compute (stop : nat) (pts : list (list N)) (r : list N) : outcome N :=
  if dims_at_least (length r) pts then compute_hv (wfg_delegate stop r) stop r (length r) pts else UB.

(** hvwfg::contributions, hv_hvwfg.cpp:92-118; each point against all the others *)
Definition remove_nth {B} (i : nat) (l : list B) : list B := firstn i l ++ skipn (S i) l.
Definition wfg_contributions (stop : nat) (pts : list (list N)) (r : list N) : outcome (list N) :=
  if dims_at_least (length r) pts then
    let d := length r in
    mmap (fun i => let p := nth i pts [] in
            exclusive_hv (compute_hv (wfg_delegate stop r) stop r d) d r p (limitset (remove_nth i pts) p d))
         (seq 0 (length pts))
  else UB.

(** ** hv3d::contributions, hv_hv3d.cpp:170-308 *)
Record box3 := mkbox { b_lx : N; b_ly : N; b_lz : N; b_ux : N; b_uy : N; b_uz : N }.
(** box_volume, :79-82 *)
Definition box_volume (b : box3) : N :=
  aabs A (amul A (amul A (asub A (b_ux b) (b_lx b)) (asub A (b_uy b) (b_ly b))) (asub A (b_uz b) (b_lz b))).
Definition with_lz (b : box3) (z : N) : box3 := mkbox (b_lx b) (b_ly b) z (b_ux b) (b_uy b) (b_uz b).

(** T is the multiset of pairs in its order. *)
Definition ptree := list (list N * nat).
(** T.lower_bound(pi): elements that compare before pi, and the rest *)
Fixpoint hycon_lower (x : N) (T : ptree) : ptree * ptree :=
  match T with
  | [] => ([], [])
  | e :: T' => if alt A x (crd (fst e) 0) then let (b, a) := hycon_lower x T' in (e :: b, a) else ([], T)
  end.
(** T.insert *)
Fixpoint hycon_insert (e : list N * nat) (T : ptree) : ptree :=
  match T with
  | [] => [e]
  | f :: T' => if alt A (crd (fst f) 0) (crd (fst e) 0) then e :: T else f :: hycon_insert e T'
  end.
(** Walking back over the dominated elements, :232-239: the indices d, and what is
    left before them (nearest first) *)
Fixpoint hycon_back (py : N) (rb : ptree) : outcome (list nat * ptree) :=
  match rb with
  | [] => UB
  | e :: rb' =>
      if alt A py (crd (fst e) 1) then '(d, rb'') <- hycon_back py rb' ;; Ok (snd e :: d, rb'')
      else Ok ([], rb)
  end.
(** Region R, :247-263 *)
Fixpoint hycon_right (px pz : N) (l : list box3) (c : N) : list box3 * N :=
  match l with
  | [] => ([], c)
  | b :: l' =>
      if ale A px (b_ux b) then hycon_right px pz l' (aadd A c (box_volume (with_lz b pz)))
      else if alt A px (b_lx b) then
        (mkbox px (b_ly b) (amaxv A) (b_ux b) (b_uy b) pz :: l', aadd A c (box_volume (with_lz b pz)))
      else (l, c)
  end.
(** Closing all boxes, :271-276 *)
Definition hycon_close (pz : N) (l : list box3) (c : N) : N := fold_left (fun c b => aadd A c (box_volume (with_lz b pz))) l c.
(** Region L, :285-295, on the boxes from the back: what is left (from the back), c and xleft *)
Fixpoint hycon_left (py pz : N) (rl : list box3) (c xleft : N) : list box3 * N * N :=
  match rl with
  | [] => ([], c, xleft)
  | b :: rl' =>
      if alt A py (b_ly b) then hycon_left py pz rl' (aadd A c (box_volume (with_lz b pz))) (b_lx b)
      else (rl, c, xleft)
  end.

Record hycon := mkhy { hy_T : ptree; hy_L : list (list box3); hy_c : list N }.
(** c[j] += ... is an access to a vector of n elements, made only when L[j] has a
    box to close; [cadd] makes the access when there is a box. *)
Definition cput (had : bool) (c : list N) (j : nat) (v : N) : outcome (list N) := if had then vset c j v else Ok c.
Definition cval (c : list N) (j : nat) : N := nth j c (azero A).
Definition nonempty {B} (l : list B) : bool := match l with [] => false | _ => true end.

(** Region M, :265-282 : for the dominated points from the leftmost *)
Fixpoint hycon_mid (ps : list (list N)) (i : nat) (pi : list N) (ds : list nat) (xleft : N) (L : list (list box3)) (c : list N)
  : outcome (N * list (list box3) * list N) :=
  match ds with
  | [] => Ok (xleft, L, c)
  | j :: ds' =>
      let lj := nth j L [] in
      let pj := nth j ps [] in
      c' <- cput (nonempty lj) c j (hycon_close (crd pi 2) lj (cval c j)) ;;
      let L1 := upd L j [] in
      let L2 := upd L1 i (nth i L1 [] ++ [mkbox xleft (crd pj 1) (amaxv A) (crd pj 0) (crd pi 1) (crd pi 2)]) in
      hycon_mid ps i pi ds' (crd pj 0) L2 c'
  end.

(** One iteration, :220-297; None when the point is dominated *)
Definition hycon_step (ps : list (list N)) (st : hycon) (i : nat) : outcome (option hycon) :=
  let pi := nth i ps [] in
  let (bef, aft) := hycon_lower (crd pi 0) (hy_T st) in
  match aft with
  | [] => UB
  | it :: _ =>
      if ale A (crd (fst it) 1) (crd pi 1) then Ok None
      else
        '(d, rb) <- hycon_back (crd pi 1) (rev bef) ;;
        match rb with
        | [] => UB
        | te :: _ =>
            let r := snd it in
            let t := snd te in
            let T1 := rev rb ++ aft in
            let L0 := hy_L st in
            let lr := nth r L0 [] in
            let (lr', cr) := hycon_right (crd pi 0) (crd pi 2) lr (cval (hy_c st) r) in
            c1 <- cput (nonempty lr) (hy_c st) r cr ;;
            let L1 := upd L0 r lr' in
            '(xleft, L2, c2) <- hycon_mid ps i pi (rev d) (crd (nth t ps []) 0) L1 c1 ;;
            let L3 := upd L2 i (nth i L2 [] ++ [mkbox xleft (crd (nth r ps []) 1) (amaxv A) (crd pi 0) (crd pi 1) (crd pi 2)]) in
            let lt := nth t L3 [] in
            let '(rlt, ct, xl) := hycon_left (crd pi 1) (crd pi 2) (rev lt) (cval c2 t) (crd (nth t ps []) 0) in
            c3 <- cput (nonempty lt) c2 t ct ;;
            let lt' := rev rlt in
            let lt2 := if alt A (crd (nth t ps []) 0) xl
                       then lt' ++ [mkbox xl (crd pi 1) (amaxv A) (crd (nth t ps []) 0) (crd (nth t ps []) 1) (crd pi 2)] else lt' in
            Ok (Some (mkhy (hycon_insert (pi, i) T1) (upd L3 t lt2) c3))
        end
  end.

Fixpoint hycon_loop (ps : list (list N)) (st : hycon) (is_ : list nat) : outcome (option hycon) :=
  match is_ with
  | [] => Ok (Some st)
  | i :: is' => o <- hycon_step ps st i ;; match o with None => Ok None | Some st' => hycon_loop ps st' is' end
  end.

Definition hv3d_contributions (sorting : bool) (pts : list (list N)) (r : list N) : outcome (list N) :=
  if negb (dims_at_least 3 (r :: pts)) then UB else
  pairs <- (if sorting then std_sort srt (fun a b => alt A (crd (fst a) 2) (crd (fst b) 2)) (combine pts (seq 0 (length pts)))
            else Ok (combine pts (seq 0 (length pts)))) ;;
  let n := length pts in
  let ninf := aneg A (amaxv A) in
  let s_x := [crd r 0; ninf; ninf] in
  let s_y := [ninf; crd r 1; ninf] in
  let s_z := [ninf; ninf; crd r 2] in
  let ps := map fst pairs ++ [s_z; s_x; s_y] in
  match pairs with
  | [] => UB                                            (* L[0] receives a box read from s_z: not meaningful, and p[0] is a sentinel *)
  | (p0, _) :: _ =>
      let T := hycon_insert (s_y, n + 2) (hycon_insert (s_x, n + 1) [(p0, 0)]) in
      let L := upd (repeat [] (n + 3)) 0 [mkbox (crd r 0) (crd r 1) (amaxv A) (crd p0 0) (crd p0 1) (crd p0 2)] in
      o <- hycon_loop ps (mkhy T L (repeat (azero A) n)) (seq 1 n) ;;
      match o with
      | None => wfg_contributions 2 pts r
      | Some st => Ok (fold_left (fun acc ic => upd acc (snd (fst ic)) (snd ic)) (combine pairs (hy_c st)) (repeat (azero A) n))
      end
  end.

(** hv2d::contributions, hv_hv2d.cpp:133-146 *)
Definition hv2d_contributions (pts : list (list N)) (r : list N) : outcome (list N) :=
  if dims_at_least 2 (r :: pts) then
    hv3d_contributions false (map (fun p => [crd p 0; crd p 1; azero A]) pts) (r ++ [aone A])
  else UB.

(** ** hv_algorithm's generic methods, for a given compute method *)
(** exclusive, hv_algorithm.cpp:112-123 *)
Definition hv_exclusive (compute : list (list N) -> list N -> outcome N) (i : nat) (pts : list (list N)) (r : list N) : outcome N :=
  match pts with
  | [_] => compute pts r
  | _ => if Nat.ltb i (length pts) then
           a <- compute pts r ;; b <- compute (remove_nth i pts) r ;; Ok (asub A a b)
         else UB
  end.
(** contributions, hv_algorithm.cpp:173-203 *)
Definition hv_contributions (compute : list (list N) -> list N -> outcome N) (pts : list (list N)) (r : list N) : outcome (list N) :=
  match pts with
  | [] => UB                                            (* points.begin() + 1 *)
  | [p] => if Nat.leb (length p) (length r) then Ok [vol_vec p r (length p)] else UB
  | _ =>
      total <- compute pts r ;;
      mmap (fun i => v <- compute (remove_nth i pts) r ;; Ok (asub A total v)) (seq 0 (length pts))
  end.
(** extreme_contributor, hv_algorithm.cpp:329-349, on the contributions *)
Fixpoint extreme_from (cmp : N -> N -> bool) (c : list N) (i : nat) (best_i : nat) (best : N) : nat :=
  match c with
  | [] => best_i
  | x :: c' => if cmp x best then extreme_from cmp c' (S i) i x else extreme_from cmp c' (S i) best_i best
  end.
Definition extreme_contributor (contribs : list (list N) -> list N -> outcome (list N)) (cmp : N -> N -> bool) (pts : list (list N)) (r : list N) : outcome nat :=
  match pts with
  | [_] => Ok 0
  | _ => c <- contribs pts r ;; match c with [] => Ok 0 | x :: c' => Ok (extreme_from cmp c' 1 0 x) end
  end.

(** assert_minimisation, hv_algorithm.cpp:226-259 *)
Definition point_bad (r p : list N) : bool :=
  forallb (fun i => aeq A (crd r i) (crd p i)) (seq 0 (length p)) || existsb (fun i => alt A (crd r i) (crd p i)) (seq 0 (length p)).
Definition assert_minimisation (pts : list (list N)) (r : list N) : outcome unit :=
  throw_if (existsb (point_bad r) pts) InvalidArgument.

(** ** The three exact algorithms *)
Inductive hvalg := HV2D | HV3D | WFG (stop : nat).
Definition alg_compute (a : hvalg) (pts : list (list N)) (r : list N) : outcome N :=
  match a with HV2D => hv2d_compute true pts r | HV3D => hv3d_compute true pts r | WFG s => wfg_compute s pts r end.
Definition alg_contributions (a : hvalg) (pts : list (list N)) (r : list N) : outcome (list N) :=
  match a with HV2D => hv2d_contributions pts r | HV3D => hv3d_contributions true pts r | WFG s => wfg_contributions s pts r end.
(** verify_before_compute of hv2d (:167-174), hv3d (:320-327), hvwfg (:129-132) *)
Definition alg_verify (a : hvalg) (pts : list (list N)) (r : list N) : outcome unit :=
  match a with
  | HV2D => throw_if (negb (Nat.eqb (length r) 2)) InvalidArgument ;;; assert_minimisation pts r
  | HV3D => throw_if (negb (Nat.eqb (length r) 3)) InvalidArgument ;;; assert_minimisation pts r
  | WFG _ => assert_minimisation pts r
  end.
(** get_best_compute / _exclusive / _contributions, hypervolume.cpp:490-538 *)
Definition best_alg (r : list N) : hvalg := match length r with 2 => HV2D | 3 => HV3D | _ => WFG 2 end.

(** ** class hypervolume (with verification on) *)
(** verify_after_construct, hypervolume.cpp:410-432; [isnan] of the arithmetic *)
Definition hv_construct (isnan : N -> bool) (pts : list (list N)) : outcome (list (list N)) :=
  match pts with
  | [] => Throw InvalidArgument
  | p0 :: _ =>
      throw_if (Nat.leb (length p0) 1) InvalidArgument ;;;
      throw_if (existsb (fun p => negb (Nat.eqb (length p) (length p0))) pts) InvalidArgument ;;;
      throw_if (existsb (existsb isnan) pts) InvalidArgument ;;;
      Ok pts
  end.
(** The constructor from a population, hypervolume.cpp:53-70: the number of
    constraints and objectives of the problem, and the population's fitnesses *)
Definition hv_construct_pop (isnan : N -> bool) (nc nobj : nat) (fs : list (list N)) : outcome (list (list N)) :=
  throw_if (Nat.ltb 0 nc) InvalidArgument ;;;
  throw_if (Nat.ltb nobj 2) InvalidArgument ;;;
  hv_construct isnan fs.
(** refpoint, hypervolume.cpp:160-181 *)
Definition hv_refpoint (pts : list (list N)) (offset : N) : list N :=
  match pts with
  | [] => []
  | p0 :: rest => map (fun i => aadd A (fold_left (fun m p => amax m (crd p i)) rest (crd p0 i)) offset) (seq 0 (length p0))
  end.
(** verify_before_compute, hypervolume.cpp:443-449 *)
Definition hv_verify (a : hvalg) (pts : list (list N)) (r : list N) : outcome unit :=
  match pts with
  | [] => UB
  | p0 :: _ => throw_if (negb (Nat.eqb (length p0) (length r))) InvalidArgument ;;; alg_verify a pts r
  end.
(** compute, hypervolume.cpp:217-229; exclusive, :241-259; contributions, :286-306;
    least_contributor, :332-350; greatest_contributor, :375-389 *)
Definition hv_obj_compute (a : hvalg) (pts : list (list N)) (r : list N) : outcome N :=
  hv_verify a pts r ;;; alg_compute a pts r.
Definition hv_obj_exclusive (a : hvalg) (i : nat) (pts : list (list N)) (r : list N) : outcome N :=
  hv_verify a pts r ;;;
  throw_if (Nat.leb (length pts) i) InvalidArgument ;;;
  hv_exclusive (alg_compute a) i pts r.
Definition hv_obj_contributions (a : hvalg) (pts : list (list N)) (r : list N) : outcome (list N) :=
  hv_verify a pts r ;;;
  match pts with
  | [p] => Ok [vol_vec p r (length p)]
  | _ => alg_contributions a pts r
  end.
Definition hv_obj_least (a : hvalg) (pts : list (list N)) (r : list N) : outcome nat :=
  hv_verify a pts r ;;;
  match pts with [_] => Ok 0 | _ => extreme_contributor (alg_contributions a) (fun x y => alt A x y) pts r end.
Definition hv_obj_greatest (a : hvalg) (pts : list (list N)) (r : list N) : outcome nat :=
  hv_verify a pts r ;;; extreme_contributor (alg_contributions a) (fun x y => alt A y x) pts r.
End Hv.
