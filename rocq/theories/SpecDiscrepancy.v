(** Specification vocabulary for weights, simplex samples and low-discrepancy
    sequences. *)
From Coq Require Import List ZArith QArith Arith.
From Verif Require Import Dbl.
Import ListNotations.

(** A finite double in [0,1]. *)
Definition unit_dbl (x : dbl) : Prop := exists z, x = Fin z /\ (0 <= z <= one_z)%Z.

Fixpoint zsum (l : list Z) : Z := match l with [] => 0 | x :: t => x + zsum t end.

Local Open Scope Z_scope.
(** Digits in base b, least significant first, and the two numbers they denote. *)
Definition digits (b : Z) (ds : list Z) : Prop := Forall (fun d => 0 <= d < b) ds.
Fixpoint number (b : Z) (ds : list Z) : Z := match ds with [] => 0 | d :: t => d + b * number b t end.
Fixpoint radical_inverse (b : Z) (ds : list Z) : Q :=
  match ds with [] => 0%Q | d :: t => ((inject_Z d + radical_inverse b t) / inject_Z b)%Q end.

(** g lies in the c-th of B equal cells of [0,1). *)
Definition in_cell (B c : Z) (g : Q) : Prop := (inject_Z c <= g * inject_Z B)%Q /\ (g * inject_Z B < inject_Z (c + 1))%Q.

(** The lattice points of the simplex: n non-negative integers summing to H. *)
Definition lattice_point (n : nat) (H : Z) (k : list Z) : Prop :=
  length k = n /\ Forall (fun x => 0 <= x) k /\ zsum k = H.

(** Pascal's triangle *)
Fixpoint choose (n k : nat) : Z :=
  match n, k with
  | _, O => 1
  | O, S _ => 0
  | S n', S k' => choose n' k' + choose n' k
  end.

(** Canonical weight i: one at position i, zero elsewhere. *)
Definition canonical (n i : nat) (w : list dbl) : Prop :=
  length w = n /\ forall j, (j < n)%nat -> nth_error w j = Some (if Nat.eqb j i then done else dzero).

(** A weight on the simplex: the correctly rounded values of exact non-negative
    numbers (in units of 2^-1074) that sum to exactly one. *)
Definition on_simplex (n : nat) (w : list dbl) : Prop :=
  exists gaps, length gaps = n /\ Forall (fun g => 0 <= g <= one_z) gaps /\ zsum gaps = one_z /\ w = map (fun g => rnd g 1) gaps.

(** [binomial_coefficient] rounds correctly. *)
Definition binomial_exact (binom : Z -> Z -> dbl) : Prop :=
  forall n k : nat, (k <= n)%nat -> binom (Z.of_nat n) (Z.of_nat k) = d_of_Z (choose n k).

Definition tenth_millesimal : dbl := Fin ((2 ^ 52 + 2875098002113325) * 2 ^ 1008).
(** Weighted distance of component i from the reference; a zero weight counts as 1e-4. *)
Definition tcheb_term (fi wi zi : dbl) : dbl :=
  dmul (if deq wi (Fin 0) then tenth_millesimal else wi) (dabs (dsub fi zi)).

(** The squared norm of the weights as the code computes it. *)
Fixpoint weight_norm2 (acc : dbl) (w : list dbl) : dbl :=
  match w with [] => acc | x :: t => weight_norm2 (dadd acc (dmul x x)) t end.
