From Coq Require Import ZArith List Lia.
From Verif Require Import Outcome Dbl IntDbl StdSort BaseFacts Golomb SpecGolomb GolombFacts.
Import ListNotations.
Local Open Scope Z_scope.

Definition all_pairs (ks : list Z) := map (measure ks) (index_pairs (S (length ks))).
Lemma ruler_value ks : Forall (fun k => 0 <= k) ks -> total ks < 2 ^ 53 -> Z.of_nat (length ks) < 2 ^ 26 ->
  golomb_fitness isort (map dint ks) = Ok [dint (total ks); dint (Z.of_nat (length (index_pairs (S (length ks)))) - Z.of_nat (distinct_values (all_pairs ks)))].
Proof.
  intros H1 H2 H3. destruct (fitness_ok isort isort_contract ks H1 H2 H3) as (l & [N I] & E). rewrite E. destruct (pairs_ok (length ks)) as [N' I'].
  assert (P : Permutation.Permutation l (index_pairs (S (length ks)))) by (apply Permutation.NoDup_Permutation; auto; intros [i j]; now rewrite I, I').
  rewrite (Permutation.Permutation_length P). unfold distinct_values, all_pairs. rewrite (nodup_perm Z.eq_dec _ _ (Permutation.Permutation_map (measure ks) P)). reflexivity.
Qed.
Lemma rulers : golomb [1; 3; 2] /\ ~ golomb [1; 1] /\ Forall (fun k => 1 <= k <= 10) [1; 3; 2] /\ golomb_fitness isort (map dint [1; 3; 2]) = Ok [dint 6; dint 0] /\ golomb_fitness isort (map dint [1; 1]) = Ok [dint 2; dint 1].
Proof.
  split; [|split; [|split; [|split]]].
  - apply (golomb_nodup [1; 3; 2] _ (pairs_ok 3)). apply distinct_all. reflexivity.
  - intros H. specialize (H 0%nat 1%nat 1%nat 2%nat ltac:(cbn; lia) ltac:(cbn; lia) eq_refl). lia.
  - repeat constructor; lia.
  - exact (ruler_value [1; 3; 2] ltac:(repeat constructor; lia) ltac:(cbn; lia) ltac:(cbn; lia)).
  - exact (ruler_value [1; 1] ltac:(repeat constructor; lia) ltac:(cbn; lia) ltac:(cbn; lia)).
Qed.
