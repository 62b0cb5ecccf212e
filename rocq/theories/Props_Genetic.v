(** Properties of the genetic operators: C36, C37. *)
From Coq Require Import List Bool Arith ZArith Lia.
From Verif Require Import Dbl IntDbl Outcome Rng Problem SpecProblem Generic SpecGeneric GenericFacts3 GeneticOps SpecGenetic DblFacts GeneticFacts GeneticFacts2 GeneticFacts3 GeneticFacts4.
Import ListNotations.

(** C36. Crossover rejects, without drawing anything, the arguments that are not valid
    (bounds of a problem, finite, parents of their length, finite parameters). *)
Theorem C36_sbx_rejects : forall G (r : rng G) pw p1 p2 lb ub nix p_cr eta, ~ sbx_args p1 p2 lb ub nix p_cr eta ->
  forall g, sbx_crossover r pw p1 p2 lb ub nix p_cr eta g = (Throw InvalidArgument, g).
Proof. exact @sbx_rejects. Qed.
Print Assumptions C36_sbx_rejects.
(** It accepts all others, whatever pow is: the children have the parents' length, each
    pair of integer genes is a pair of the parents' genes in one order or the other, and
    genes that cannot vary are kept. *)
Theorem C36_sbx_accepts : forall G (r : rng G) pw, rng_contract r -> forall p1 p2 lb ub nix p_cr eta, sbx_args p1 p2 lb ub nix p_cr eta ->
  always (sbx_crossover r pw p1 p2 lb ub nix p_cr eta) (fun cs => length (fst cs) = length p1 /\ length (snd cs) = length p1 /\
    exchanged p1 p2 (length p1 - nix) (fst cs) (snd cs) /\ kept_where_fixed p1 lb ub nix (fst cs) /\ kept_where_fixed p2 lb ub nix (snd cs)) never.
Proof. exact @sbx_accepts. Qed.
Print Assumptions C36_sbx_accepts.
(** Parents in the box have children in the box, and integers stay integers, when the
    bounds are at most 2^1022 in absolute value and the distribution index is not negative. *)
Theorem C36_sbx_box : forall G (r : rng G) pw, rng_contract r -> forall p1 p2 lb ub nix p_cr eta, pow_contract pw -> sbx_args p1 p2 lb ub nix p_cr eta ->
  in_box lb ub p1 -> in_box lb ub p2 -> integral_tail nix p1 -> integral_tail nix p2 ->
  (forall l, In l lb -> moderate l) -> (forall u, In u ub -> moderate u) -> dle dzero eta = true ->
  always (sbx_crossover r pw p1 p2 lb ub nix p_cr eta)
    (fun cs => in_box lb ub (fst cs) /\ in_box lb ub (snd cs) /\ integral_tail nix (fst cs) /\ integral_tail nix (snd cs)) never.
Proof. exact @sbx_box. Qed.
Print Assumptions C36_sbx_box.
(** Without those conditions a component may be NaN, but no number is out of the box. *)
Theorem C36_sbx_box_or_nan : forall G (r : rng G) pw, rng_contract r -> forall p1 p2 lb ub nix p_cr eta, sbx_args p1 p2 lb ub nix p_cr eta ->
  in_box lb ub p1 -> in_box lb ub p2 ->
  always (sbx_crossover r pw p1 p2 lb ub nix p_cr eta) (fun cs => in_box_or_nan lb ub (fst cs) /\ in_box_or_nan lb ub (snd cs)) never.
Proof. exact @sbx_box_nan. Qed.
Print Assumptions C36_sbx_box_or_nan.
(** NaN does occur: bounds of +-2^1023, parents at the two bounds, all draws 0. *)
Theorem C36_sbx_huge_bounds_refuted : forall pw, pow_contract pw -> exists (g : list Z) c2,
  fst (sbx_crossover stream_rng pw [dneg dhuge] [dhuge] [dneg dhuge] [dhuge] 0 done done g) = Ok ([NaN], c2).
Proof. exact sbx_nan_refuted. Qed.
Print Assumptions C36_sbx_huge_bounds_refuted.
(** Probability zero: the children are the parents. *)
Theorem C36_sbx_never : forall G (r : rng G) pw, rng_contract r -> forall p1 p2 lb ub nix p_cr eta, sbx_args p1 p2 lb ub nix p_cr eta -> dle p_cr dzero = true ->
  always (sbx_crossover r pw p1 p2 lb ub nix p_cr eta) (fun cs => cs = (p1, p2)) never.
Proof. exact @sbx_never. Qed.
Print Assumptions C36_sbx_never.
Example C36_sbx_nonvacuous : rng_contract stream_rng /\ pow_contract pow_toy /\ sbx_args ex_p1 ex_p2 ex_lb ex_ub 1 done done /\ dle dzero done = true /\
  in_box ex_lb ex_ub ex_p1 /\ in_box ex_lb ex_ub ex_p2 /\ integral_tail 1 ex_p1 /\ integral_tail 1 ex_p2 /\
  (forall l, In l ex_lb -> moderate l) /\ (forall u, In u ex_ub -> moderate u) /\
  fst (sbx_crossover stream_rng pow_toy ex_p1 ex_p2 ex_lb ex_ub 1 done done []) = Ok ([dint 2; dint 0], [dint 2; dint 2]).
Proof. exact sbx_example. Qed.

(** Mutation: rejected arguments, box, box or NaN, probability zero, genes that cannot
    vary.  The one failure on accepted arguments is an integer gene whose bounds do not fit
    in 64 bits, reported as invalid_argument. *)
Theorem C36_mutation_rejects : forall G (r : rng G) pw dv lb ub nix p_m eta, ~ mut_args dv lb ub nix p_m eta ->
  forall g, polynomial_mutation r pw dv lb ub nix p_m eta g = (Throw InvalidArgument, g).
Proof. exact @mut_rejects. Qed.
Print Assumptions C36_mutation_rejects.
Theorem C36_mutation_box : forall G (r : rng G) pw, rng_contract r -> forall dv lb ub nix p_m eta, pow_contract pw -> mut_args dv lb ub nix p_m eta ->
  Forall is_double lb -> Forall is_double ub -> in_box lb ub dv -> integral_tail nix dv ->
  (forall l, In l lb -> moderate l) -> (forall u, In u ub -> moderate u) -> dle dzero eta = true ->
  always (polynomial_mutation r pw dv lb ub nix p_m eta) (fun c => in_box lb ub c /\ integral_tail nix c) (fun e => e = InvalidArgument /\ ~ ints_fit nix lb ub).
Proof. exact @mut_box. Qed.
Print Assumptions C36_mutation_box.
Theorem C36_mutation_box_or_nan : forall G (r : rng G) pw, rng_contract r -> forall dv lb ub nix p_m eta, mut_args dv lb ub nix p_m eta ->
  Forall is_double lb -> Forall is_double ub -> in_box lb ub dv ->
  always (polynomial_mutation r pw dv lb ub nix p_m eta) (in_box_or_nan lb ub) (fun e => e = InvalidArgument).
Proof. exact @mut_box_nan. Qed.
Print Assumptions C36_mutation_box_or_nan.
Theorem C36_mutation_never : forall G (r : rng G) pw, rng_contract r -> forall dv lb ub nix p_m eta, mut_args dv lb ub nix p_m eta -> dle p_m dzero = true ->
  always (polynomial_mutation r pw dv lb ub nix p_m eta) (fun c => c = dv) never.
Proof. exact @mut_never. Qed.
Print Assumptions C36_mutation_never.
Theorem C36_mutation_keeps : forall G (r : rng G) pw, rng_contract r -> forall dv lb ub nix p_m eta, mut_args dv lb ub nix p_m eta ->
  Forall is_double lb -> Forall is_double ub ->
  always (polynomial_mutation r pw dv lb ub nix p_m eta) (fun c => length c = length dv /\ kept_where_fixed dv lb ub nix c) (fun e => e = InvalidArgument).
Proof. exact @mut_keeps. Qed.
Print Assumptions C36_mutation_keeps.
Example C36_mutation_nonvacuous : mut_args ex_p1 ex_lb ex_ub 1 done done /\ Forall is_double ex_lb /\ Forall is_double ex_ub /\
  fst (polynomial_mutation stream_rng pow_toy ex_p1 ex_lb ex_ub 1 done done []) = Ok [dint 1; dint 0].
Proof. exact mut_example. Qed.

(** C37. The tournament returns one of its arguments: the one of smaller rank, on equal
    rank the one of larger crowding distance. *)
Theorem C37_tournament : forall G (r : rng G), rng_contract r -> forall i j rank crowd ri rj ci cj,
  nth_error rank i = Some ri -> nth_error rank j = Some rj -> nth_error crowd i = Some ci -> nth_error crowd j = Some cj ->
  always (tournament r i j rank crowd) (fun k => (k = i \/ k = j) /\ (ri < rj -> k = i) /\ (rj < ri -> k = j) /\
    (ri = rj -> dlt cj ci = true -> k = i) /\ (ri = rj -> dlt ci cj = true -> k = j)) never.
Proof. exact @tournament_ok. Qed.
Print Assumptions C37_tournament.
Example C37_tournament_nonvacuous : fst (tournament stream_rng 0 2 [1; 0; 1] [dint 5; dint 1; PInf] []) = Ok 2 /\
  fst (tournament stream_rng 0 1 [1; 0; 1] [dint 5; dint 1; PInf] []) = Ok 1.
Proof. split; reflexivity. Qed.
(** In case of a tie both outcomes are possible. *)
Theorem C37_tie : forall i j rank crowd k, nth_error rank i = Some k -> nth_error rank j = Some k ->
  forall ci cj, nth_error crowd i = Some ci -> nth_error crowd j = Some cj -> dlt ci cj = false -> dlt cj ci = false ->
  (exists g, fst (tournament stream_rng i j rank crowd g) = Ok i) /\ (exists g, fst (tournament stream_rng i j rank crowd g) = Ok j).
Proof. exact tournament_random. Qed.
Print Assumptions C37_tie.
Example C37_tie_nonvacuous : nth_error [0; 0] 0 = nth_error [0; 0] 1 /\ dlt PInf PInf = false.
Proof. split; reflexivity. Qed.
