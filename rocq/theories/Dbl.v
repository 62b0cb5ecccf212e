(** IEEE-754 binary64 values and arithmetic, axiom free.

    [Fin z] denotes the real number z * 2^-1074.  Every finite double is an
    integer multiple of 2^-1074, so the order and equality of finite doubles are
    those of the integers [z].  Not every [z] is a double ([is_double] says which
    are); theorems about comparisons therefore range over a superset.

    Simplifications: +0 and -0 are one value ([Fin 0]); a finite value divided by
    zero gets the sign of the dividend; NaN payloads are not modelled.  Rounding is to nearest, ties to even,
    the default mode, which pagmo never changes. *)
From Coq Require Import ZArith Bool Lia.
Local Open Scope Z_scope.

Inductive dbl : Set :=
| NaN : dbl
| MInf : dbl
| Fin (z : Z) : dbl
| PInf : dbl.

(** std::isnan, std::isfinite, std::isinf *)
Definition isnan (a : dbl) : bool := match a with NaN => true | _ => false end.
Definition isfinite (a : dbl) : bool := match a with Fin _ => true | _ => false end.
Definition isinf (a : dbl) : bool := match a with MInf | PInf => true | _ => false end.

(** The built-in operators <, ==, <=, >, >= on double: false whenever a NaN is
    involved. *)
Definition dlt (a b : dbl) : bool :=
  match a, b with
  | NaN, _ | _, NaN => false
  | MInf, MInf => false
  | MInf, _ => true
  | _, MInf => false
  | Fin x, Fin y => x <? y
  | Fin _, PInf => true
  | PInf, _ => false
  end.

Definition deq (a b : dbl) : bool :=
  match a, b with
  | MInf, MInf | PInf, PInf => true
  | Fin x, Fin y => x =? y
  | _, _ => false
  end.

Definition dle (a b : dbl) : bool := dlt a b || deq a b.
Definition dgt (a b : dbl) : bool := dlt b a.
Definition dge (a b : dbl) : bool := dle b a.
Definition dneq (a b : dbl) : bool := negb (deq a b).

(** std::max(a,b) = (a < b) ? b : a and std::min(a,b) = (b < a) ? b : a *)
Definition dmax (a b : dbl) : dbl := if dlt a b then b else a.
Definition dmin (a b : dbl) : dbl := if dlt b a then b else a.

(** The unit: 1.0 = 2^1074 * 2^-1074. *)
Definition one_z : Z := 2 ^ 1074.
Definition dzero : dbl := Fin 0.
Definition done : dbl := Fin one_z.

(** std::numeric_limits<double>::max() = (2^53 - 1) * 2^971 *)
Definition dbl_max : dbl := Fin ((2 ^ 53 - 1) * 2 ^ 2045).

(** Smallest number of units that overflows: 2^1024. *)
Definition ovf_z : Z := 2 ^ 2098.

(** Which integers of units are doubles. *)
Definition is_double (a : dbl) : Prop :=
  match a with
  | Fin z => exists m e, z = m * 2 ^ e /\ 0 <= e /\ Z.abs m < 2 ^ 53 /\ Z.abs z < ovf_z
  | _ => True
  end.

(** Round the non-negative rational n/d (in units) to nearest even: at most 53
    significant bits, and no finer than one unit (subnormals). *)
Definition rnd_exp (q : Z) : Z := Z.max 0 (Z.log2 q - 52).
(** Quotient and remainder of n by d > 0, shifting when d is a power of two. *)
Definition quo_rem (n d : Z) : Z * Z :=
  let k := Z.log2 d in
  if d =? 2 ^ k then let q := Z.shiftr n k in (q, n - Z.shiftl q k) else Z.div_eucl n d.
(** n/d = q + r/d and q = m 2^e + t: round m up or down by comparing the dropped part
    t + r/d with 2^e / 2. DblFacts.rnd_nat_mant states the same by n / (d 2^e) and n mod (d 2^e). *)
Definition rnd_nat (n d : Z) : Z :=
  let (q, r) := quo_rem n d in
  let e := rnd_exp q in
  let m := Z.shiftr q e in
  let t := q - Z.shiftl m e in
  let half := if e =? 0 then 2 * r ?= d
              else match 2 * t ?= 2 ^ e with Eq => if r =? 0 then Eq else Gt | c => c end in
  let m' := match half with
            | Lt => m
            | Eq => if Z.even m then m else m + 1
            | Gt => m + 1
            end in
  Z.shiftl m' e.

Definition rnd (n d : Z) : dbl :=
  let s := Z.sgn n in
  let v := rnd_nat (Z.abs n) d in
  if ovf_z <=? v then (if s <? 0 then MInf else PInf) else Fin (s * v).

Definition dneg (a : dbl) : dbl :=
  match a with NaN => NaN | MInf => PInf | PInf => MInf | Fin z => Fin (- z) end.

(** std::abs *)
Definition dabs (a : dbl) : dbl :=
  match a with NaN => NaN | MInf | PInf => PInf | Fin z => Fin (Z.abs z) end.

Definition dadd (a b : dbl) : dbl :=
  match a, b with
  | NaN, _ | _, NaN => NaN
  | MInf, PInf | PInf, MInf => NaN
  | MInf, _ | _, MInf => MInf
  | PInf, _ | _, PInf => PInf
  | Fin x, Fin y => rnd (x + y) 1
  end.

Definition dsub (a b : dbl) : dbl := dadd a (dneg b).

Definition sgn_inf (s : Z) : dbl :=
  if s <? 0 then MInf else if 0 <? s then PInf else NaN.

Definition dsgn (a : dbl) : Z :=
  match a with NaN => 0 | MInf => -1 | PInf => 1 | Fin z => Z.sgn z end.

Definition dmul (a b : dbl) : dbl :=
  match a, b with
  | NaN, _ | _, NaN => NaN
  | Fin x, Fin y => rnd (x * y) one_z
  | _, _ => sgn_inf (dsgn a * dsgn b)
  end.

Definition ddiv (a b : dbl) : dbl :=
  match a, b with
  | NaN, _ | _, NaN => NaN
  | Fin x, Fin y =>
      if y =? 0 then sgn_inf (Z.sgn x)
      else if y <? 0 then rnd (- x * one_z) (- y) else rnd (x * one_z) y
  | Fin _, _ => Fin 0
  | _, Fin y => if y <? 0 then dneg a else a
  | _, _ => NaN
  end.

(** std::sqrt, correctly rounded: sqrt(z * 2^-1074) in units is
    sqrt(z * 2^1074); the integer root is taken with 2*60 extra bits and a sticky
    bit, which decides every rounding. *)
Definition dsqrt (a : dbl) : dbl :=
  match a with
  | NaN => NaN
  | MInf => NaN
  | PInf => PInf
  | Fin z =>
      if z <? 0 then NaN
      else
        let n := z * one_z * 2 ^ 120 in
        let s := Z.sqrt n in
        let sticky := if s * s =? n then 0 else 1 in
        rnd (2 * s + sticky) (2 ^ 61)
  end.

(** static_cast<double>(integer) *)
Definition d_of_Z (k : Z) : dbl := rnd (k * one_z) 1.

(** std::trunc *)
Definition dtrunc (a : dbl) : dbl :=
  match a with Fin z => Fin (Z.quot z one_z * one_z) | _ => a end.

(** static_cast<integer>(double) for a finite value (the C++ cast is undefined
    when the value does not fit; callers in the model check that). *)
Definition Z_of_d (z : Z) : Z := Z.quot z one_z.
