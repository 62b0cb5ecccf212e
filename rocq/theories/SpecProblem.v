(** Specification vocabulary for problems. *)
From Coq Require Import List Arith ZArith Sorting.Sorted.
From Verif Require Import Dbl Outcome Problem Bfe.
Import ListNotations.

(** A double that is an integer. *)
Definition integral (x : dbl) : Prop := exists k : Z, x = Fin (k * one_z).

(** Bounds a problem may have. *)
Definition good_bounds (lb ub : list dbl) (nix : nat) : Prop :=
  lb <> [] /\ length lb = length ub /\
  (forall i l u, nth_error lb i = Some l -> nth_error ub i = Some u -> l <> NaN /\ u <> NaN /\ dle l u = true) /\
  nix <= length lb /\
  (forall i l u, length lb - nix <= i -> nth_error lb i = Some l -> nth_error ub i = Some u ->
     (isfinite l = true -> integral l) /\ (isfinite u = true -> integral u)).

(** Lexicographic order on index pairs. *)
Definition lex (a b : nat * nat) : Prop := fst a < fst b \/ (fst a = fst b /\ snd a < snd b).

(** Valid sparsity patterns: in range (and lower triangular), strictly increasing. *)
Definition good_gradient_pattern (nf nx : nat) (s : sparsity) : Prop :=
  (forall a, In a s -> fst a < nf /\ snd a < nx) /\ StronglySorted lex s.
Definition good_hessian_pattern (nx : nat) (s : sparsity) : Prop :=
  (forall a, In a s -> fst a < nx /\ snd a <= fst a) /\ StronglySorted lex s.

(** The conditions under which a problem can be constructed. *)
Definition good_udp (u : udp) : Prop :=
  let nx := length (u_lb u) in let nf := u_nobj u + u_nec u + u_nic u in
  good_bounds (u_lb u) (u_ub u) (u_nix u) /\
  u_nobj u <> 0 /\
  (3 * Z.of_nat (u_nobj u) < 2 ^ 64)%Z /\ (3 * Z.of_nat (u_nec u) < 2 ^ 64)%Z /\ (3 * Z.of_nat (u_nic u) < 2 ^ 64)%Z /\
  match u_gs u with
  | Some s => good_gradient_pattern nf nx s
  | None => (Z.of_nat nx * Z.of_nat nf < 2 ^ 64)%Z
  end /\
  match u_hs u with
  | Some l => length l = nf /\ forall s, In s l -> good_hessian_pattern nx s
  | None => (Z.of_nat nx < 2 ^ 64 - 1)%Z /\ ((Z.of_nat nx / 2) * (Z.of_nat nx + 1) < 2 ^ 64)%Z
  end.

(** A batch of n vectors of length d. *)
Definition is_batch (d n : nat) (v : list dbl) : Prop := length v = n * d.

(** What a freshly constructed problem looks like. *)
Definition built (u : udp) (p : problem) : Prop :=
  p_udp p = u /\ p_lb p = u_lb u /\ p_ub p = u_ub u /\ p_nobj p = u_nobj u /\ p_nec p = u_nec u /\ p_nic p = u_nic u /\ p_nix p = u_nix u /\
  get_nx p = length (u_lb u) /\ get_nf p = u_nobj u + u_nec u + u_nic u /\ (Z.of_nat (get_nf p) < 2 ^ 64)%Z /\
  p_ctol p = repeat dzero (u_nec u + u_nic u).

(** What one call adds to the evaluation counter: 1 for a fitness call that returned, the
    number of vectors for a batch call whose user function returned. *)
Definition contribution (p : problem) (s : callst) : Z :=
  match s with
  | FDone _ (Ok _) => 1
  | BCount xs _ => Z.of_nat (length xs / get_nx p)
  | BDone xs true _ => Z.of_nat (length xs / get_nx p)
  | _ => 0
  end.
Definition total (p : problem) (l : list callst) : Z := fold_right (fun s t => (contribution p s + t)%Z) 0%Z l.
