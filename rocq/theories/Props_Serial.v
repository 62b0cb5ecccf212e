(** Property C60: save followed by load.
    Only statements, non-vacuity examples and assumption listings. *)
From Coq Require Import String List Bool Arith ZArith Lia.
From Verif Require Import Dbl Outcome Problem Policies Migration Serialization SpecSerial SerialFacts SerialFacts2.
Import ListNotations.
Local Open Scope list_scope.

(** ** C60. Whatever the target was before and whatever follows in the stream, loading gives
    back every member of the saved object and leaves the rest of the stream; every proper
    prefix of what was saved is refused with an exception. The user-defined parts must have
    serializations with these two properties. *)
Theorem C60_problem : forall U (cu : codec U) default p, good_problem cu p ->
  restores (save_problem cu p) (load_problem cu default) (fun _ => p) /\ refuses_truncated (save_problem cu p) (load_problem cu default).
Proof. exact @problem_ok. Qed.
Print Assumptions C60_problem.
Theorem C60_algorithm : forall U (cu : codec U) default a, good_codec cu (a_ptr a) ->
  restores (save_algorithm cu a) (load_algorithm cu default) (fun _ => a) /\ refuses_truncated (save_algorithm cu a) (load_algorithm cu default).
Proof. exact @algorithm_reads. Qed.
Print Assumptions C60_algorithm.
(** Topologies, replacement policies and selection policies. *)
Theorem C60_named : forall U (cu : codec U) default a, good_codec cu (n_ptr a) ->
  restores (save_named cu a) (load_named cu default) (fun _ => a) /\ refuses_truncated (save_named cu a) (load_named cu default).
Proof. exact @named_reads. Qed.
Print Assumptions C60_named.
Theorem C60_bfe : forall U (cu : codec U) default a, good_codec cu (b_ptr a) ->
  restores (save_bfe cu a) (load_bfe cu default) (fun _ => a) /\ refuses_truncated (save_bfe cu a) (load_bfe cu default).
Proof. exact @bfe_reads. Qed.
Print Assumptions C60_bfe.
Theorem C60_population : forall U G (cu : codec U) (et : engine_text G) dp default p, good_population cu et p ->
  restores (save_population cu et p) (load_population cu et dp default) (fun _ => p) /\ refuses_truncated (save_population cu et p) (load_population cu et dp default).
Proof. exact @population_ok. Qed.
Print Assumptions C60_population.
(** The loaded island stays in the archipelago it was in. *)
Theorem C60_island : forall UI UA UP UR US G (ci : codec UI) (ca : codec UA) (cp : codec UP) (cr : codec UR) (cs : codec US) (et : engine_text G) dprob dpop dalgo drp dsp default x,
  good_island ci ca cp cr cs et x ->
  restores (save_island ci ca cp cr cs et x) (load_island ci ca cp cr cs et dprob dpop dalgo drp dsp default) (fun old => placed (i_archi old) x) /\
  refuses_truncated (save_island ci ca cp cr cs et x) (load_island ci ca cp cr cs et dprob dpop dalgo drp dsp default).
Proof. exact @island_reads. Qed.
Print Assumptions C60_island.
(** The loaded archipelago: the islands are new objects with the saved contents, pointing to
    this archipelago and indexed by its map. *)
Theorem C60_archipelago : forall UI UA UP UR US G UT (ci : codec UI) (ca : codec UA) (cp : codec UP) (cr : codec UR) (cs : codec US) (et : engine_text G) dprob dpop dalgo drp dsp di (ct : codec UT) dt this fresh
  (a : archipelago_obj UI UA UP UR US G UT), (forall p, In p (r_islands a) -> good_island ci ca cp cr cs et (snd p)) -> good_codec ct (n_ptr (r_topology a)) -> (forall i j, fresh i = fresh j -> i = j) ->
  (exists b, restores (save_archipelago ci ca cp cr cs et ct a) (load_archipelago ci ca cp cr cs et dprob dpop dalgo drp dsp di ct dt this fresh) (fun _ => b) /\ same_archipelago a b /\ linked this b) /\
  refuses_truncated (save_archipelago ci ca cp cr cs et ct a) (load_archipelago ci ca cp cr cs et dprob dpop dalgo drp dsp di ct dt this fresh).
Proof. exact @archipelago_ok. Qed.
Print Assumptions C60_archipelago.
(** A load that throws, whatever the stream contains, leaves the default object. *)
Theorem C60_failure_resets :
  (forall U (cu : codec U) d, resets_on_failure (load_problem cu d) d) /\ (forall U (cu : codec U) d, resets_on_failure (load_algorithm cu d) d) /\
  (forall U (cu : codec U) d, resets_on_failure (load_named cu d) d) /\ (forall U (cu : codec U) d, resets_on_failure (load_bfe cu d) d) /\
  (forall U G (cu : codec U) (et : engine_text G) dp d, resets_on_failure (load_population cu et dp d) d) /\
  (forall UI UA UP UR US G (ci : codec UI) (ca : codec UA) (cp : codec UP) (cr : codec UR) (cs : codec US) (et : engine_text G) dprob dpop dalgo drp dsp d,
     resets_on_failure (load_island ci ca cp cr cs et dprob dpop dalgo drp dsp d) d) /\
  (forall UI UA UP UR US G UT (ci : codec UI) (ca : codec UA) (cp : codec UP) (cr : codec UR) (cs : codec US) (et : engine_text G) dprob dpop dalgo drp dsp di (ct : codec UT) dt this fresh,
     resets_on_failure (load_archipelago ci ca cp cr cs et dprob dpop dalgo drp dsp di ct dt this fresh) (mkarchi [] [] [] [] dt P2P Preserve)).
Proof. exact all_reset. Qed.
Print Assumptions C60_failure_resets.
Example C60_example : (forall p, In p (r_islands sarchi) -> good_island c_unit c_unit c_unit c_unit c_unit et_bool (snd p)) /\ good_codec c_unit (n_ptr (r_topology sarchi)) /\ (forall i j, 100 + i = 100 + j -> i = j).
Proof. exact serial_example. Qed.
(** Not true: "a corrupted archive raises". The text of the random engine may be malformed. *)
Theorem C60_corruption_noticed_refuted : exists ts ts', save_population c_unit et_bool spop = ts /\ List.length ts' = List.length ts /\ (forall b, ~ In (TStr (e_to et_bool b)) ts') /\
  exists r p, load_population c_unit et_bool dprob0 dpop0 dpop0 ts' = (Ok r, p).
Proof. exact engine_unnoticed. Qed.
Print Assumptions C60_corruption_noticed_refuted.
(** Not true: "a loaded population is consistent", when the archive was not written by save. *)
Theorem C60_loaded_consistent_refuted : exists ts r p, load_population c_unit et_bool dprob0 dpop0 dpop0 ts = (Ok r, p) /\ List.length (q_ID p) <> List.length (q_x p).
Proof. exact unvalidated. Qed.
Print Assumptions C60_loaded_consistent_refuted.
(** Not true: "an island stays in its archipelago". A failed load into it takes it out. *)
Theorem C60_island_stays_refuted : exists old ts e t, i_archi old <> None /\
  load_island c_unit c_unit c_unit c_unit c_unit et_bool dprob0 dpop0 salgo snamed snamed disl old ts = (Throw e, t) /\ i_archi t = None.
Proof. exact detached. Qed.
Print Assumptions C60_island_stays_refuted.
