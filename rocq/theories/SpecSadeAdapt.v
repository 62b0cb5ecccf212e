(** Vocabulary for the adaptation of F and CR in self-adaptive differential evolution. *)
From Coq Require Import List Bool Arith ZArith.
From Verif Require Import Dbl Outcome Rng SpecGeneric Algo AlgDe AlgSade SpecSade.
Import ListNotations.

(** Half of the normally distributed number z times a difference *)
Definition half_of : dbl := rnd one_z 2.
Definition push (z x y : dbl) : dbl := dmul (dmul z half_of) (dsub x y).
(** iDE applies the mutation strategy to the parameters themselves, with [push] in place of F
    times a difference: [best] is the parameter of the best individual, [own] that of the one
    being mutated, m0 to m6 those of the seven others. *)
Definition ide_formula (variant : nat) (z1 z2 z3 best own m0 m1 m2 m3 m4 m5 m6 : dbl) : dbl :=
  match strategy variant with
  | 0 => dadd best (push z1 m1 m2)
  | 1 => dadd m0 (push z1 m1 m2)
  | 2 => dadd (dadd own (push z1 best own)) (push z2 m0 m1)
  | 3 => dadd (dadd best (push z1 m0 m1)) (push z2 m2 m3)
  | 4 => dadd (dadd m4 (push z1 m0 m1)) (push z2 m2 m3)
  | 5 => dadd (dadd (dadd m0 (push z1 m1 m2)) (push z2 m3 m4)) (push z3 m5 m6)
  | 6 => dadd (dadd (dadd best (push z1 m1 m2)) (push z2 m3 m4)) (push z3 m5 m6)
  | 7 => dadd (dadd m0 (push z1 m1 own)) (push z2 m3 m4)
  | _ => dsub (dadd m0 (push z1 m1 own)) (push z2 m2 best)
  end.
(** CR has other formulas in three strategies *)
Definition ide_CR_formula (variant : nat) (z1 z2 z3 best own m0 m1 m2 m3 m4 m5 m6 : dbl) : dbl :=
  match strategy variant with
  | 5 => dadd m4 (dmul (dmul z1 half_of) (dsub (dsub (dadd m0 m1) m2) m3))
  | 6 => dadd best (dmul (dmul z1 half_of) (dsub (dsub (dadd m0 m1) m2) m3))
  | 8 => dsub (dadd m0 (push z1 m1 own)) (push z2 m3 best)
  | _ => ide_formula variant z1 z2 z3 best own m0 m1 m2 m3 m4 m5 m6
  end.
(** The new value made out of the kept values M with formula f, for some normal numbers *)
Definition made_by (f : dbl -> dbl -> dbl -> dbl -> dbl -> dbl -> dbl -> dbl -> dbl -> dbl -> dbl -> dbl -> dbl) (M : list dbl) (best : dbl) (ri : list nat) (i : nat) (v : dbl) : Prop :=
  let m k := nth (nth k ri 0) M NaN in exists z1 z2 z3, v = f z1 z2 z3 best (nth i M NaN) (m 0) (m 1) (m 2) (m 3) (m 4) (m 5) (m 6).
(** jDE keeps the individual's value or draws a new one in the range *)
Definition jde_new (range : dbl -> Prop) (M : list dbl) (i : nat) (v : dbl) : Prop := v = nth i M NaN \/ range v.
