(** Properties C45-C47: replacement policy, selection policy, policy wrappers. *)
From Coq Require Import List Bool Arith ZArith Lia.
From Verif Require Import Dbl Outcome StdSort BaseFacts IntDbl SpecOrder Constrained SpecConstrained ConstrainedFacts2 Policies SpecPolicies PoliciesFacts.
Import ListNotations.

(** C45. *)
Theorem C45_single_objective : forall srt rate inds mig tol, sort_contract srt -> aligned inds -> aligned mig ->
  rate_ok rate (length (g_id inds)) -> (forall f, In f (g_f inds ++ g_f mig) -> length f = 1) ->
  exists out, fair_replace srt rate inds 1 0 0 tol mig = Ok out /\ fair_outcome beats_objective rate inds mig out.
Proof. exact fair_objective. Qed.
Print Assumptions C45_single_objective.
Example C45_single_objective_nonvacuous : aligned exg /\ aligned exm /\ rate_ok (Absolute 1) (length (g_id exg)) /\
  fair_replace (@isort) (Absolute 1) exg 1 0 0 [] exm =
  Ok (mkgrp [11; 2; 1]%Z [[Fin 6]; [Fin 2]; [Fin 1]] [[Fin 1]; [Fin 3]; [Fin 5]]).
Proof. refine (conj (conj eq_refl eq_refl) (conj (conj eq_refl eq_refl) (conj _ ex_fair))). cbn. lia. Qed.

(** No individual of the old population beats all of the new one. *)
Theorem C45_best_not_lost : forall rate inds mig out, fair_outcome beats_objective rate inds mig out ->
  0 < length (g_id inds) -> aligned inds ->
  forall a, In a (members inds) -> exists b, In b (members out) /\ ~ beats_objective (fit a) (fit b).
Proof. exact fair_not_worse. Qed.
Print Assumptions C45_best_not_lost.
Example C45_best_not_lost_nonvacuous : exists out, fair_outcome beats_objective (Absolute 1) exg exm out.
Proof.
  destruct (fair_objective (@isort) (Absolute 1) exg exm [] isort_contract) as (out & _ & H);
    [split; reflexivity|split; reflexivity|cbn; lia| |exists out; exact H].
  intros f Hf. cbn in Hf. destruct Hf as [<-|[<-|[<-|[<-|[<-|[]]]]]]; reflexivity.
Qed.

(** Constrained problems: whenever the documented comparison orders the individuals. *)
Theorem C45_constrained : forall srt rate inds mig nec nic tol, sort_contract srt -> aligned inds -> aligned mig ->
  rate_ok rate (length (g_id inds)) -> (0 <= nec)%Z -> (0 <= nic)%Z -> (0 < nec + nic)%Z ->
  (forall f, In f (g_f inds ++ g_f mig) -> fc_args_ok (Z.to_nat nec) tol f) ->
  strict_weak_on (fc_lt (Z.to_nat nec) tol) (g_f inds ++ g_f mig) ->
  exists out, fair_replace srt rate inds 1 nec nic tol mig = Ok out /\ fair_outcome (beats_constrained nec tol) rate inds mig out.
Proof. exact fair_constrained. Qed.
Print Assumptions C45_constrained.
Example C45_constrained_nonvacuous : let g := exc swo_pop in let m := mkgrp [] [] [] in
  aligned g /\ aligned m /\ rate_ok (Absolute 1) (length (g_id g)) /\ strict_weak_on (fc_lt (Z.to_nat 1) ftol) (g_f g ++ g_f m).
Proof.
  cbv zeta. split; [split; reflexivity|]. split; [split; reflexivity|]. split; [cbn; lia|].
  cbn [exc g_f]. rewrite app_nil_r. exact swo_example.
Qed.

(** Refuted without that hypothesis: the call is then undefined behaviour. *)
Theorem C45_constrained_defined_refuted : exists inds mig nec nic tol rate, aligned inds /\ aligned mig /\ rate_ok rate (length (g_id inds)) /\
  finite_all tol /\ (forall f, In f (g_f inds) -> fc_args_ok (Z.to_nat nec) tol f /\ finite_all f) /\
  forall srt, sort_contract srt -> fair_replace srt rate inds 1 nec nic tol mig = UB.
Proof. exact fair_constrained_refuted. Qed.
Print Assumptions C45_constrained_defined_refuted.

Theorem C45_multi_objective : forall srt rate inds mig nobj tol, sort_contract srt -> aligned inds -> aligned mig ->
  rate_ok rate (length (g_id inds)) -> (1 < nobj)%Z ->
  (forall f, In f (g_f inds ++ g_f mig) -> Z.of_nat (length f) = nobj) ->
  exists out, fair_replace srt rate inds nobj 0 0 tol mig = Ok out /\ fair_outcome beats_pareto rate inds mig out.
Proof. exact fair_pareto. Qed.
Print Assumptions C45_multi_objective.
Example C45_multi_objective_nonvacuous : aligned exmo /\ aligned exmm /\ rate_ok (Fractional done) (length (g_id exmo)) /\
  (forall f, In f (g_f exmo ++ g_f exmm) -> Z.of_nat (length f) = 2%Z).
Proof.
  split; [split; reflexivity|]. split; [split; reflexivity|]. split; [split; [reflexivity|split; [reflexivity|cbn; lia]]|].
  intros f Hf. cbn in Hf. destruct Hf as [<-|[<-|[<-|[<-|[]]]]]; reflexivity.
Qed.

Theorem C45_rejects : forall srt rate inds mig nobj nec nic tol,
  ((1 < nobj /\ (nec <> 0 \/ nic <> 0))%Z \/ (exists c, rate = Absolute c /\ length (g_x inds) < c)) ->
  fair_replace srt rate inds nobj nec nic tol mig = Throw InvalidArgument.
Proof. exact fair_rejects. Qed.
Print Assumptions C45_rejects.
Example C45_rejects_nonvacuous : fair_replace (@isort) (Absolute 4) exg 1 0 0 [] exm = Throw InvalidArgument.
Proof. apply C45_rejects. right. exists 4. split; [reflexivity|cbn; lia]. Qed.

(** C46. *)
Theorem C46_single_objective : forall srt rate inds tol, sort_contract srt -> aligned inds ->
  rate_ok rate (length (g_id inds)) -> (forall f, In f (g_f inds) -> length f = 1) ->
  exists out, select_best srt rate inds 1 0 0 tol = Ok out /\ select_outcome beats_objective rate inds out /\
    ranked beats_objective (members out).
Proof. exact select_objective. Qed.
Print Assumptions C46_single_objective.
Example C46_single_objective_nonvacuous : aligned exg /\ rate_ok (Absolute 2) (length (g_id exg)) /\
  select_best (@isort) (Absolute 2) exg 1 0 0 [] = Ok (mkgrp [2; 1]%Z [[Fin 2]; [Fin 1]] [[Fin 3]; [Fin 5]]).
Proof. refine (conj (conj eq_refl eq_refl) (conj _ ex_select)). cbn. lia. Qed.

Theorem C46_constrained : forall srt rate inds nec nic tol, sort_contract srt -> aligned inds ->
  rate_ok rate (length (g_id inds)) -> (0 <= nec)%Z -> (0 <= nic)%Z -> (0 < nec + nic)%Z ->
  (forall f, In f (g_f inds) -> fc_args_ok (Z.to_nat nec) tol f) ->
  strict_weak_on (fc_lt (Z.to_nat nec) tol) (g_f inds) ->
  exists out, select_best srt rate inds 1 nec nic tol = Ok out /\ select_outcome (beats_constrained nec tol) rate inds out /\
    ranked (beats_constrained nec tol) (members out).
Proof. exact select_constrained. Qed.
Print Assumptions C46_constrained.
Example C46_constrained_nonvacuous : aligned (exc swo_pop) /\ strict_weak_on (fc_lt (Z.to_nat 1) ftol) (g_f (exc swo_pop)).
Proof. exact (conj (conj eq_refl eq_refl) swo_example). Qed.

Theorem C46_multi_objective : forall srt rate inds nobj tol, sort_contract srt -> aligned inds ->
  rate_ok rate (length (g_id inds)) -> (1 < nobj)%Z ->
  (forall f, In f (g_f inds) -> Z.of_nat (length f) = nobj) ->
  exists out, select_best srt rate inds nobj 0 0 tol = Ok out /\ select_outcome beats_pareto rate inds out.
Proof. exact select_pareto. Qed.
Print Assumptions C46_multi_objective.
Example C46_multi_objective_nonvacuous : aligned exmo /\ (forall f, In f (g_f exmo) -> Z.of_nat (length f) = 2%Z).
Proof.
  split; [split; reflexivity|]. intros f Hf. cbn in Hf. destruct Hf as [<-|[<-|[<-|[]]]]; reflexivity.
Qed.

Theorem C46_rejects : forall srt rate inds nobj nec nic tol,
  ((1 < nobj /\ (nec <> 0 \/ nic <> 0))%Z \/ (exists c, rate = Absolute c /\ length (g_x inds) < c)) ->
  select_best srt rate inds nobj nec nic tol = Throw InvalidArgument.
Proof. exact select_rejects. Qed.
Print Assumptions C46_rejects.
Example C46_rejects_nonvacuous : select_best (@isort) (Absolute 4) exg 1 0 0 [] = Throw InvalidArgument.
Proof. apply C46_rejects. right. exists 4. split; [reflexivity|cbn; lia]. Qed.

(** The rates that can be configured are those in range. *)
Theorem C46_rates :
  (forall n, make_absolute n = if ((0 <=? n) && (n <=? 2 ^ 64 - 1))%Z then Ok (Absolute (Z.to_nat n)) else Throw OverflowError) /\
  (forall x, (dle dzero x = true /\ dle x done = true -> make_fractional x = Ok (Fractional x)) /\
             (~ (dle dzero x = true /\ dle x done = true) -> make_fractional x = Throw InvalidArgument)).
Proof. exact rates_cases. Qed.
Print Assumptions C46_rates.
Example C46_rates_nonvacuous : dle dzero (Fin 5) = true /\ dle (Fin 5) done = true /\ ~ (dle dzero NaN = true).
Proof. split; [reflexivity|]. split; [reflexivity|discriminate]. Qed.

(** C47. *)
Theorem C47_r_policy : forall udrp inds d mig, size_args d ->
  (~ (consistent d /\ shaped (d_nx d) (nf_sum d) inds /\ shaped (d_nx d) (nf_sum d) mig) ->
     r_policy_replace udrp inds d mig = Throw InvalidArgument) /\
  (consistent d -> shaped (d_nx d) (nf_sum d) inds -> shaped (d_nx d) (nf_sum d) mig ->
     match udrp inds d mig with
     | Ok out => (shaped (d_nx d) (nf_sum d) out -> r_policy_replace udrp inds d mig = Ok out) /\
                 (~ shaped (d_nx d) (nf_sum d) out -> r_policy_replace udrp inds d mig = Throw InvalidArgument)
     | other => r_policy_replace udrp inds d mig = other
     end).
Proof. exact r_policy_spec. Qed.
Print Assumptions C47_r_policy.
Example C47_r_policy_nonvacuous : size_args exd /\ consistent exd /\ shaped (d_nx exd) (nf_sum exd) exg /\
  shaped (d_nx exd) (nf_sum exd) exm /\ ~ shaped (d_nx exd) (nf_sum exd) exmo.
Proof.
  split; [repeat split; cbn; lia|]. split; [split; [cbn; lia|reflexivity]|].
  split; [|split].
  - split; [split; reflexivity|]. split; intros v Hv; cbn in Hv; destruct Hv as [<-|[<-|[<-|[]]]]; reflexivity.
  - split; [split; reflexivity|]. split; intros v Hv; cbn in Hv; destruct Hv as [<-|[<-|[]]]; reflexivity.
  - intros (_ & _ & H). specialize (H [Fin 5; Fin 5] (or_introl eq_refl)). discriminate.
Qed.

Theorem C47_s_policy : forall udsp inds d, size_args d ->
  (~ (consistent d /\ shaped (d_nx d) (nf_sum d) inds) -> s_policy_select udsp inds d = Throw InvalidArgument) /\
  (consistent d -> shaped (d_nx d) (nf_sum d) inds ->
     match udsp inds d with
     | Ok out => (shaped (d_nx d) (nf_sum d) out -> s_policy_select udsp inds d = Ok out) /\
                 (~ shaped (d_nx d) (nf_sum d) out -> s_policy_select udsp inds d = Throw InvalidArgument)
     | other => s_policy_select udsp inds d = other
     end).
Proof. exact s_policy_spec. Qed.
Print Assumptions C47_s_policy.
Example C47_s_policy_nonvacuous : size_args exd /\ consistent exd /\ shaped (d_nx exd) (nf_sum exd) exg.
Proof.
  split; [repeat split; cbn; lia|]. split; [split; [cbn; lia|reflexivity]|].
  split; [split; reflexivity|]. split; intros v Hv; cbn in Hv; destruct Hv as [<-|[<-|[<-|[]]]]; reflexivity.
Qed.
