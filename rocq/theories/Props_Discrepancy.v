(** Properties C33-C35: simplex sampling, van der Corput / Halton sequences, primes. *)
From Coq Require Import List Bool Arith ZArith QArith Znumtheory.
From Verif Require Import Dbl Outcome StdSort BaseFacts Primes PrimesFacts Discrepancy SpecDiscrepancy DiscrepancyFacts DiscrepancyFacts2.
Import ListNotations.
Local Open Scope Z_scope.

(** C33 *)
Theorem C33_sample_from_simplex : forall srt input, sort_contract srt -> Forall unit_dbl input -> input <> [] ->
  exists r, sample_from_simplex srt input = Ok r /\ length r = S (length input) /\ on_simplex (S (length input)) r.
Proof. exact simplex_sum. Qed.
Print Assumptions C33_sample_from_simplex.
Theorem C33_sample_from_simplex_rejects : forall srt input,
  input = [] \/ (exists x, In x input /\ x <> NaN /\ ~ unit_dbl x) -> sample_from_simplex srt input = Throw InvalidArgument.
Proof. exact simplex_throws. Qed.
Print Assumptions C33_sample_from_simplex_rejects.
(** A NaN input is outside [0,1] but is not rejected. *)
Theorem C33_nan_rejected_refuted : exists srt r, sort_contract srt /\ sample_from_simplex srt [NaN] = Ok r /\ In NaN r.
Proof. exact simplex_nan. Qed.
Print Assumptions C33_nan_rejected_refuted.
Definition half : dbl := Fin (2 ^ 1073).
Definition quarter : dbl := Fin (2 ^ 1072).
Example C33_example : Forall unit_dbl [half; quarter] /\ sample_from_simplex isort [half; quarter] = Ok [quarter; quarter; half] /\
  sample_from_simplex isort [d_of_Z 2] = Throw InvalidArgument.
Proof.
  split; [|split; vm_compute; reflexivity].
  repeat constructor; eexists; (split; [reflexivity|]); split; vm_compute; discriminate.
Qed.

(** C34 *)
Theorem C34_van_der_corput_sequence : forall b n k s, vdc_ctor b n = Ok s -> 0 <= n -> n + Z.of_nat k <= 2 ^ 32 ->
  exists l, vdc_calls k s = Ok l /\ length l = k /\
    forall j g ds, nth_error l j = Some g -> digits b ds -> number b ds = n + Z.of_nat j -> (g == radical_inverse b ds)%Q.
Proof. exact vdc_sequence. Qed.
Print Assumptions C34_van_der_corput_sequence.
(** every index has a digit expansion, so the previous theorem determines every value *)
Theorem C34_digit_expansion_exists : forall b n, 2 <= b -> 0 <= n < 2 ^ 32 -> exists ds, digits b ds /\ number b ds = n.
Proof. exact vdc_representation. Qed.
Print Assumptions C34_digit_expansion_exists.
Theorem C34_range_and_no_repetition : forall b n k s l, vdc_ctor b n = Ok s -> 0 <= n -> n + Z.of_nat k <= 2 ^ 32 -> vdc_calls k s = Ok l ->
  (forall j g, nth_error l j = Some g -> (0 <= g)%Q /\ (g < 1)%Q) /\
  (forall i j g h, nth_error l i = Some g -> nth_error l j = Some h -> (g == h)%Q -> i = j).
Proof. exact vdc_sequence_range_inj. Qed.
Print Assumptions C34_range_and_no_repetition.
Theorem C34_equidistributed : forall b m q s l k, vdc_ctor b (q * b ^ Z.of_nat m) = Ok s -> 0 <= q -> (q + 1) * b ^ Z.of_nat m <= 2 ^ 32 ->
  Z.of_nat k = b ^ Z.of_nat m -> vdc_calls k s = Ok l ->
  forall c, 0 <= c < b ^ Z.of_nat m ->
  exists j g, nth_error l j = Some g /\ in_cell (b ^ Z.of_nat m) c g /\
    forall j' g', nth_error l j' = Some g' -> in_cell (b ^ Z.of_nat m) c g' -> j' = j.
Proof. exact vdc_equidistributed. Qed.
Print Assumptions C34_equidistributed.
Theorem C34_halton_sequence : forall dim n k, Z.of_nat dim <= 1600 -> 0 <= n -> n + Z.of_nat k <= 2 ^ 32 ->
  exists h bases l, halton_ctor dim n = Ok h /\ halton_calls k h = Ok l /\ length l = k /\ length bases = dim /\ NoDup bases /\
    (forall i b, nth_error bases i = Some b -> prime_at (i + 1) = Ok b) /\
    forall j pt, nth_error l j = Some pt -> length pt = dim /\
      forall i b g, nth_error bases i = Some b -> nth_error pt i = Some g ->
        (0 <= g)%Q /\ (g < 1)%Q /\ forall ds, digits b ds -> number b ds = n + Z.of_nat j -> (g == radical_inverse b ds)%Q.
Proof. exact halton_sequence. Qed.
Print Assumptions C34_halton_sequence.
Theorem C34_rejects : forall b n dim, (b < 2 -> vdc_ctor b n = Throw InvalidArgument) /\
  (1600 < Z.of_nat dim -> exists e, halton_ctor dim n = Throw e).
Proof. exact (fun b n dim => conj (vdc_rejects b n) (halton_rejects dim n)). Qed.
Print Assumptions C34_rejects.
Example C34_example : exists s l, vdc_ctor 2 0 = Ok s /\ vdc_calls 4 s = Ok l /\ map Qred l = [0; 1 # 2; 1 # 4; 3 # 4]%Q /\
  digits 2 [1; 1] /\ number 2 [1; 1] = 3 /\ (radical_inverse 2 [1%Z; 1%Z] == 3 # 4)%Q.
Proof.
  eexists _, _. split; [reflexivity|]. split; [vm_compute; reflexivity|]. split; [vm_compute; reflexivity|].
  split; [repeat constructor; discriminate|]. split; reflexivity.
Qed.

(** C35 *)
Theorem C35_prime_table : forall i, 1 <= Z.of_nat i < 1601 ->
  exists p below, prime_at i = Ok p /\ prime p /\
    NoDup below /\ length below = (i - 1)%nat /\ (forall q, In q below <-> prime q /\ q < p).
Proof. exact prime_at_spec. Qed.
Print Assumptions C35_prime_table.
Theorem C35_prime_monotone : forall i j p q, (i < j)%nat -> prime_at i = Ok p -> prime_at j = Ok q -> p < q.
Proof. exact prime_at_mono. Qed.
Print Assumptions C35_prime_monotone.
Theorem C35_prime_edges : prime_at 0 = Ok 1 /\ forall n, 1601 <= Z.of_nat n -> prime_at n = Throw InvalidArgument.
Proof. exact (conj prime_at_zero prime_at_oob). Qed.
Print Assumptions C35_prime_edges.
Example C35_example : prime_at 1 = Ok 2 /\ prime_at 5 = Ok 11 /\ prime_at 1600 = Ok 13499.
Proof. vm_compute. auto. Qed.
