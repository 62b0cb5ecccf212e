(** Vocabulary for self-adaptive differential evolution. *)
From Coq Require Import List Bool Arith ZArith.
From Verif Require Import Dbl Outcome StdSort Problem Rng SpecGeneric Population Algo SpecAlgo AlgDe AlgSade.
Import ListNotations.

(** The eighteen variants are nine strategies with exponential or binomial crossover. *)
Definition strategy (variant : nat) : nat := if Nat.leb variant 10 then (variant - 1) mod 5 else 5 + (variant - 11) / 2.
Definition exponential (variant : nat) : Prop := In variant [1; 2; 3; 4; 5; 11; 13; 15; 17].
(** The strategies on one component: [best], [old] (the component of the individual being
    mutated) and seven others. *)
Definition sade_formula (variant : nat) (F best old x0 x1 x2 x3 x4 x5 x6 : dbl) : dbl :=
  match strategy variant with
  | 0 => dadd best (dmul F (dsub x1 x2))                                                                                  (* best/1 *)
  | 1 => dadd x0 (dmul F (dsub x1 x2))                                                                                    (* rand/1 *)
  | 2 => dadd (dadd old (dmul F (dsub best old))) (dmul F (dsub x0 x1))                                                   (* rand-to-best/1 *)
  | 3 => dadd (dadd best (dmul (dsub x0 x1) F)) (dmul (dsub x2 x3) F)                                                     (* best/2 *)
  | 4 => dadd (dadd x4 (dmul (dsub x0 x1) F)) (dmul (dsub x2 x3) F)                                                       (* rand/2 *)
  | 5 => dadd (dadd (dadd x0 (dmul (dsub x1 x2) F)) (dmul (dsub x3 x4) F)) (dmul (dsub x5 x6) F)                          (* rand/3 *)
  | 6 => dadd (dadd (dadd best (dmul (dsub x1 x2) F)) (dmul (dsub x3 x4) F)) (dmul (dsub x5 x6) F)                        (* best/3 *)
  | 7 => dadd (dadd x0 (dmul (dsub x1 old) F)) (dmul (dsub x2 x3) F)                                                      (* rand-to-current/2 *)
  | _ => dsub (dadd x0 (dmul (dsub x1 old) F)) (dmul (dsub x2 best) F)                                                    (* rand-to-best-and-current/2 *)
  end.
Definition sade_mutant (variant : nat) (F : dbl) (old : list (list dbl)) (best : list dbl) (ri : list nat) (i n : nat) : dbl :=
  let c k := comp old (nth k ri 0) n in sade_formula variant F (nth n best NaN) (comp old i n) (c 0) (c 1) (c 2) (c 3) (c 4) (c 5) (c 6).

(** The double nearest to 0.1, and the ranges in which jDE keeps F and CR. *)
Definition tenth : dbl := rnd one_z 10.
Definition F_range : dbl -> Prop := within tenth done.
Definition CR_range : dbl -> Prop := within dzero done.

(** What an algorithm object can keep: that of a new object, or of one that has run evolve on
    some population. *)
Inductive reached {G P} (r : rng G) (srt : sorter) (a : sade_params) : kept -> Prop :=
| R_new : reached r srt a (mkkept [] [] [])
| R_evolve k (s : G * pop P) k' s' : reached r srt a k -> valid_pop (snd s) -> fitness_defined (po_prob (snd s)) -> sade_evolve r srt a k s = (Ok k', s') -> reached r srt a k'.
(** The outcome of evolve on s: as for differential evolution (see SpecAlgo), with as many
    kept values as there are individuals. *)
Definition sade_result {G P} (srt : sorter) (a : sade_params) (Box : list dbl -> Prop) (s : G * pop P) (k' : kept) (s' : G * pop P) : Prop :=
  valid_pop (snd s') /\ replaced (better_point (po_prob (snd s)) Box) (snd s) (snd s') /\
  (exists n, 1 <= n <= sa_gen a /\ evals (n * length (po_id (snd s))) (snd s) (snd s') /\ (n < sa_gen a -> flat srt (sa_xtol a) (sa_ftol a) (snd s'))) /\
  length (k_F k') = length (po_id (snd s)) /\ length (k_CR k') = length (po_id (snd s)).

(** t is a trial vector for individual i of old: at least one component is mutated, the others
    are the individual's; in the exponential variants the mutated positions are cyclically
    consecutive. *)
Definition trial_of (variant : nat) (F : dbl) (dim : nat) (old : list (list dbl)) (best : list dbl) (ri : list nat) (i : nat) (t : list dbl) : Prop :=
  length t = dim /\
  (forall m, m < dim -> nth m t NaN = sade_mutant variant F old best ri i m \/ nth m t NaN = comp old i m) /\
  (exists m, m < dim /\ nth m t NaN = sade_mutant variant F old best ri i m) /\
  (exponential variant -> exists n L, n < dim /\ 1 <= L <= dim /\ forall m, m < dim ->
     (in_run dim n L m -> nth m t NaN = sade_mutant variant F old best ri i m) /\ (~ in_run dim n L m -> nth m t NaN = comp old i m)).
(** y is x with the components outside of the bounds drawn anew between them. *)
Definition put_back (lb ub x y : list dbl) : Prop := length y = length x /\
  forall i l u v, nth_error lb i = Some l -> nth_error ub i = Some u -> nth_error x i = Some v ->
    exists w, nth_error y i = Some w /\ (v <> NaN -> within l u w) /\ (within l u v -> w = v) /\ (v = NaN -> w = NaN).
(** l' is l with element i replaced by v. *)
Definition put {A} (l : list A) (i : nat) (v : A) (l' : list A) : Prop := forall j, nth_error l' j = if Nat.eqb j i then Some v else nth_error l j.
(** Seven different individuals out of NP *)
Definition seven_of (NP : nat) (ri : list nat) : Prop := length ri = 7 /\ NoDup ri /\ forall a, In a ri -> a < NP.
(** The state of evolve fits the population. *)
Definition state_fits {P} (a : sade_params) (s : pop P) (st : sst) : Prop :=
  let NP := length (po_id s) in let nx := get_nx (po_prob s) in let e := s_de st in let k := s_kept st in
  length (d_old e) = NP /\ length (d_new e) = NP /\ d_fit e = po_f s /\ (forall x, In x (d_old e) -> length x = nx) /\ length (d_gbIter e) = nx /\ length (d_gbfit e) = 1 /\
  length (k_F k) = NP /\ length (k_CR k) = NP /\ match sa_pool a with Fixed _ => True | Among l => length (k_V k) = NP /\ forall v, In v (k_V k) -> In v l end.
