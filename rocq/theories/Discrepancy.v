(** Model of src/utils/discrepancy.cpp. *)
From Coq Require Import List Bool Arith ZArith QArith.
From Verif Require Import Dbl Outcome StdSort Compare Primes.
Import ListNotations.

(** discrepancy.cpp:76-79, the loop of differences over the extended vector *)
Fixpoint diffs (prev : dbl) (l : list dbl) : list dbl :=
  match l with
  | [] => []
  | x :: t => dsub x prev :: diffs x t
  end.

(** sample_from_simplex, discrepancy.cpp:68-87. The in-place loop reads in[i+1]
    before it is overwritten, so it is the list of consecutive differences of
    0, sorted input, 1. *)
Definition sample_from_simplex (srt : sorter) (input : list dbl) : outcome (list dbl) :=
  if existsb (fun x => dlt x dzero || dgt x done) input then Throw InvalidArgument
  else if Nat.ltb 0 (length input) then
    bind (std_sort srt less_than_f input) (fun s => Ok (diffs dzero (s ++ [done])))
  else Throw InvalidArgument.

(** van_der_corput, discrepancy.cpp:89-113. Members m_base, m_counter (unsigned,
    32 bits). Simplification: the returned double is modelled by the exact
    rational the loop computes (rounding outside the model). *)
Record vdc := { vdc_base : Z; vdc_counter : Z }.

Definition vdc_ctor (b n : Z) : outcome vdc :=
  if Z.ltb b 2 then Throw InvalidArgument else Ok {| vdc_base := b; vdc_counter := n |}.

(** discrepancy.cpp:106-110 *)
Fixpoint vdc_loop (fuel : nat) (b i : Z) (f ret : Q) : outcome Q :=
  if Z.eqb i 0 then Ok ret
  else match fuel with
       | O => NoFuel
       | S k => vdc_loop k b (i / b) (f / inject_Z b)%Q (ret + f * inject_Z (i mod b))%Q
       end.

Definition two32 : Z := (2 ^ 32)%Z.

Definition vdc_next (s : vdc) : outcome (Q * vdc) :=
  bind (vdc_loop 32 (vdc_base s) (vdc_counter s) (1 / inject_Z (vdc_base s))%Q 0%Q)
       (fun g => Ok (g, {| vdc_base := vdc_base s; vdc_counter := ((vdc_counter s + 1) mod two32)%Z |})).

(** halton, discrepancy.cpp:115-134 *)
Definition halton_ctor (dim : nat) (n : Z) : outcome (list vdc) :=
  mmap (fun i => bind (prime_at (i + 1)) (fun p => vdc_ctor p n)) (seq 0 dim).

Definition halton_next (h : list vdc) : outcome (list Q * list vdc) :=
  bind (mmap vdc_next h) (fun r => Ok (map fst r, map snd r)).
