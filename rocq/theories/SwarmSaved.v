(** What the archives of pso, pso_gen and nspso restore. *)
From Coq Require Import List.
From Verif Require Import Dbl Outcome AlgPso AlgPsoGen AlgNspso.

Lemma pso_saved old a : let a' := pso_load old (pso_save a) in
  ps_gen a' = ps_gen a /\ ps_omega a' = ps_omega a /\ ps_eta1 a' = ps_eta1 a /\ ps_eta2 a' = ps_eta2 a /\ ps_max_vel a' = ps_max_vel a /\ ps_variant a' = ps_variant a /\ ps_ntype a' = ps_ntype a /\ ps_nparam a' = ps_nparam a /\ (ps_memory old = ps_memory a -> a' = a).
Proof. destruct a, old. cbn. repeat (split; [reflexivity|]). now intros ->. Qed.
Lemma pgen_saved (B : Type) old a (b : option B) : let a' := fst (pgen_load old (pgen_save a b)) in
  ps_gen a' = ps_gen a /\ ps_omega a' = ps_omega a /\ ps_eta1 a' = ps_eta1 a /\ ps_eta2 a' = ps_eta2 a /\ ps_max_vel a' = ps_max_vel a /\ ps_variant a' = ps_variant a /\ ps_ntype a' = ps_ntype a /\ ps_nparam a' = ps_nparam a /\ (ps_memory old = ps_memory a -> a' = a) /\ snd (pgen_load old (pgen_save a b)) = b.
Proof. destruct a, old. cbn. repeat (split; [reflexivity|]). split; [now intros ->|reflexivity]. Qed.
Lemma nspso_saved (B : Type) old mold a m (b : option B) : let a' := fst (fst (nspso_load old mold (nspso_save a m b))) in
  np_gen a' = np_gen a /\ np_omega a' = np_omega a /\ np_c1 a' = np_c1 a /\ np_c2 a' = np_c2 a /\ np_chi a' = np_chi a /\ np_vcoeff a' = np_vcoeff a /\ np_range a' = np_range a /\ np_div a' = np_div a /\ (np_memory old = np_memory a -> a' = a) /\ snd (nspso_load old mold (nspso_save a m b)) = b.
Proof. destruct a, old. cbn. repeat (split; [reflexivity|]). split; [now intros ->|reflexivity]. Qed.
