(** Vocabulary for rulers: whole gaps between neighbouring marks, the first mark at 0. *)
From Coq Require Import ZArith List.
From Verif Require Import Dbl IntDbl.
Import ListNotations.
Local Open Scope Z_scope.

Definition total (ks : list Z) : Z := fold_right Z.add 0 ks.
(** Where mark i is *)
Definition mark (ks : list Z) (i : nat) : Z := total (firstn i ks).
Definition measure (ks : list Z) (ij : nat * nat) : Z := mark ks (snd ij) - mark ks (fst ij).
(** No two different pairs of marks are the same distance apart. *)
Definition golomb (ks : list Z) : Prop :=
  forall i j i' j', (i < j <= length ks)%nat -> (i' < j' <= length ks)%nat -> mark ks j - mark ks i = mark ks j' - mark ks i' -> i = i' /\ j = j'.
(** The distances of all pairs of marks, each pair once. *)
Definition lists_pairs (n : nat) (l : list (nat * nat)) : Prop := NoDup l /\ forall i j, In (i, j) l <-> (i < j <= n)%nat.
Definition distinct_values (l : list Z) : nat := length (nodup Z.eq_dec l).
