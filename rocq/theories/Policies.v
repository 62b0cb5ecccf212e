(** Replacement and selection policies: fair_replace, select_best and the
    type-erased wrappers r_policy and s_policy. *)
From Coq Require Import List Bool Arith ZArith.
From Verif Require Import Dbl Outcome StdSort Compare MultiObj Constrained Problem.
Import ListNotations.
Local Open Scope outcome_scope.

(** individuals_group_t, types.hpp:57: IDs, decision vectors, fitness vectors.
    IDs are unsigned 64-bit numbers, here integers. *)
Record group := mkgrp { g_id : list Z; g_x : list (list dbl); g_f : list (list dbl) }.

(** The migration rate, base_sr_policy.hpp:89: boost::variant<pop_size_t, double>. *)
Inductive migr_rate := Absolute (n : nat) | Fractional (x : dbl).

(** base_sr_policy constructors, base_sr_policy.hpp:58-68 and
    base_sr_policy.cpp:54-66.  The absolute rate arrives as any integral value;
    numeric_cast rejects values outside the range of pop_size_t. *)
Definition make_absolute (n : Z) : outcome migr_rate :=
  if ((n <? 0) || (u64max <? n))%Z then Throw OverflowError else Ok (Absolute (Z.to_nat n)).
Definition make_fractional (x : dbl) : outcome migr_rate :=
  if negb (isfinite x) || dlt x dzero || dgt x done then Throw InvalidArgument else Ok (Fractional x).

(** boost::numeric_cast<pop_size_t>(double): truncates; throws outside the range;
    a NaN passes the range check and its conversion is undefined. *)
Definition size_of_double (x : dbl) : outcome nat :=
  match x with
  | NaN => UB
  | MInf | PInf => Throw OverflowError
  | Fin z => if (z <=? - one_z)%Z || ((2 ^ 64 * one_z <=? z)%Z) then Throw OverflowError
             else Ok (Z.to_nat (Z.quot z one_z))
  end.

(** How many individuals the rate asks for: fair_replace.cpp:79-100 and
    select_best.cpp:78-99 (the same code). *)
Definition migr_count (rate : migr_rate) (inds_size : nat) : outcome nat :=
  match rate with
  | Fractional x =>
      c <- size_of_double (dmul x (d_of_Z (Z.of_nat inds_size))) ;;
      Ok (Nat.min c inds_size)
  | Absolute c => if Nat.ltb inds_size c then Throw InvalidArgument else Ok c
  end.

(** The loops "push_back(std::get<k>(g)[idx[i]])" for i < n and k = 0, 1, 2
    (fair_replace.cpp:130-134 and the like, select_best.cpp:126-130). *)
Definition pick {A} (l : list A) (idx : list nat) (n : nat) : outcome (list A) :=
  mmap (fun i => k <- vget idx i ;; vget l k) (seq 0 n).
Definition pick_group (g : group) (idx : list nat) (n : nat) : outcome group :=
  ids <- pick (g_id g) idx n ;;
  xs <- pick (g_x g) idx n ;;
  fs <- pick (g_f g) idx n ;;
  Ok (mkgrp ids xs fs).

Definition app_group (a b : group) : group :=
  mkgrp (g_id a ++ g_id b) (g_x a ++ g_x b) (g_f a ++ g_f b).

(** Indirect sort of [n] individuals by the first fitness component:
    fair_replace.cpp:120-125 and :137-144, select_best.cpp:114-119.  Reading a
    missing vector or an empty one is undefined (said here for any [n], although
    std::sort compares nothing when n < 2). *)
Definition sort_first (srt : sorter) (fs : list (list dbl)) (n : nat) : outcome (list nat) :=
  if Nat.leb n (length fs) && forallb (fun f => Nat.ltb 0 (length f)) fs
  then std_sort srt (fun i j => less_than_f (nth 0 (nth i fs []) NaN) (nth 0 (nth j fs []) NaN)) (iota n)
  else UB.

(** The order of preference used by both policies for the three kinds of
    problems: fair_replace.cpp:116-125, :161-163, :193-194 and
    select_best.cpp:110-119, :138, :157. [n] is how many will be used (only the
    multi-objective case looks at it). *)
Definition rank_group (srt : sorter) (nobj nec nic : Z) (tol : list dbl) (fs : list (list dbl)) (size n : nat) : outcome (list nat) :=
  if (nobj =? 1)%Z && ((nic =? 0)%Z && (nec =? 0)%Z) then sort_first srt fs size
  else if (nobj =? 1)%Z then sort_population_con srt fs (Z.to_nat nec) tol
  else select_best_N_mo srt fs n.

(** fair_replace::replace, fair_replace.cpp:63-221.  The three branches differ
    only in the ranking, which is why they share one text here. *)
Definition fair_replace (srt : sorter) (rate : migr_rate) (inds : group) (nobj nec nic : Z) (tol : list dbl) (mig : group) : outcome group :=
  if (1 <? nobj)%Z && (negb (nic =? 0)%Z || negb (nec =? 0)%Z) then Throw InvalidArgument
  else
    let inds_size := length (g_x inds) in
    let mig_size := length (g_x mig) in
    candidate <- migr_count rate inds_size ;;
    let n_migr := Nat.min candidate mig_size in
    mig_ind_sort <- rank_group srt nobj nec nic tol (g_f mig) mig_size n_migr ;;
    used <- pick_group mig mig_ind_sort n_migr ;;
    let merged := app_group inds used in
    merged_ind_sort <- rank_group srt nobj nec nic tol (g_f merged) (length (g_id merged)) inds_size ;;
    pick_group merged merged_ind_sort inds_size.

(** select_best::select, select_best.cpp:63-172 *)
Definition select_best (srt : sorter) (rate : migr_rate) (inds : group) (nobj nec nic : Z) (tol : list dbl) : outcome group :=
  if (1 <? nobj)%Z && (negb (nic =? 0)%Z || negb (nec =? 0)%Z) then Throw InvalidArgument
  else
    let inds_size := length (g_x inds) in
    n_migr <- migr_count rate inds_size ;;
    idx <- rank_group srt nobj nec nic tol (g_f inds) inds_size n_migr ;;
    pick_group inds idx n_migr.

(** ** The wrappers *)

(** Problem data handed to a policy: nx, nix, nobj, nec, nic (size_t) and the
    tolerances. *)
Record pdata := mkpd { d_nx : Z; d_nix : Z; d_nobj : Z; d_nec : Z; d_nic : Z; d_tol : list dbl }.

(** r_policy.cpp:93-100, :103-110, :183-191; s_policy.cpp:96-103, :166-174 *)
Definition bad_sizes (g : group) : bool :=
  negb (Nat.eqb (length (g_id g)) (length (g_x g))) || negb (Nat.eqb (length (g_id g)) (length (g_f g))).

(** r_policy.cpp:155-156: the two checkers *)
Definition bad_len (n : Z) (v : list dbl) : bool := negb (Z.of_nat (length v) =? n)%Z.

(** r_policy.cpp:112-150 = s_policy.cpp:105-143 *)
Definition verify_dims (d : pdata) : outcome unit :=
  throw_if (d_nx d =? 0)%Z InvalidArgument ;;;
  throw_if (d_nx d <? d_nix d)%Z InvalidArgument ;;;
  throw_if (d_nobj d =? 0)%Z InvalidArgument ;;;
  throw_if (u64max / 3 <? d_nobj d)%Z InvalidArgument ;;;
  throw_if (u64max / 3 <? d_nec d)%Z InvalidArgument ;;;
  throw_if (u64max / 3 <? d_nic d)%Z InvalidArgument ;;;
  throw_if (negb (Z.of_nat (length (d_tol d)) =? wrap64 (d_nec d + d_nic d))%Z) InvalidArgument.

Definition nf_of (d : pdata) : Z := wrap64 (wrap64 (d_nobj d + d_nec d) + d_nic d).

(** r_policy.cpp:158-167 and :168-175; s_policy.cpp:151-158 *)
Definition verify_members (d : pdata) (g : group) : outcome unit :=
  throw_if (existsb (bad_len (d_nx d)) (g_x g)) InvalidArgument ;;;
  throw_if (existsb (bad_len (nf_of d)) (g_f g)) InvalidArgument.

(** r_policy::verify_replace_input, r_policy.cpp:87-176 *)
Definition verify_replace_input (inds : group) (d : pdata) (mig : group) : outcome unit :=
  throw_if (bad_sizes inds) InvalidArgument ;;;
  throw_if (bad_sizes mig) InvalidArgument ;;;
  verify_dims d ;;;
  verify_members d inds ;;;
  verify_members d mig.

(** verify_replace_output, r_policy.cpp:179-207; verify_select_output, s_policy.cpp:162-190 *)
Definition verify_output (d : pdata) (g : group) : outcome unit :=
  throw_if (bad_sizes g) InvalidArgument ;;;
  verify_members d g.

(** s_policy::verify_select_input, s_policy.cpp:90-159 *)
Definition verify_select_input (inds : group) (d : pdata) : outcome unit :=
  throw_if (bad_sizes inds) InvalidArgument ;;;
  verify_dims d ;;;
  verify_members d inds.

(** r_policy::replace, r_policy.cpp:210-227. [udrp] is the user's policy. *)
Definition r_policy_replace (udrp : group -> pdata -> group -> outcome group) (inds : group) (d : pdata) (mig : group) : outcome group :=
  verify_replace_input inds d mig ;;;
  retval <- udrp inds d mig ;;
  verify_output d retval ;;;
  Ok retval.

(** s_policy::select, s_policy.cpp:193-210 *)
Definition s_policy_select (udsp : group -> pdata -> outcome group) (inds : group) (d : pdata) : outcome group :=
  verify_select_input inds d ;;;
  retval <- udsp inds d ;;
  verify_output d retval ;;;
  Ok retval.

(** The default policies as user-defined policies (they ignore nx and nix). *)
Definition udrp_fair (srt : sorter) (rate : migr_rate) (inds : group) (d : pdata) (mig : group) : outcome group :=
  fair_replace srt rate inds (d_nobj d) (d_nec d) (d_nic d) (d_tol d) mig.
Definition udsp_best (srt : sorter) (rate : migr_rate) (inds : group) (d : pdata) : outcome group :=
  select_best srt rate inds (d_nobj d) (d_nec d) (d_nic d) (d_tol d).
