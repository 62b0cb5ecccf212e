(** How crowded the neighbourhood of a point is. *)
From Coq Require Import List ZArith.
From Verif Require Import Dbl.
Import ListNotations.

(** The Euclidean distance, in floating point; [pw] is std::pow *)
Definition distance (pw : dbl -> dbl -> dbl) (x y : list dbl) : dbl :=
  dsqrt (fold_left (fun s i => dadd s (pw (dsub (nth i x NaN) (nth i y NaN)) (d_of_Z 2))) (seq 0 (length x)) dzero).
(** The number of individuals of b that are closer than delta to individual a *)
Definition near (pw : dbl -> dbl -> dbl) (dvs : list (list dbl)) (b : list nat) (delta : dbl) (a : nat) : nat :=
  length (filter (fun m => dlt (distance pw (nth a dvs []) (nth m dvs [])) delta) b).
