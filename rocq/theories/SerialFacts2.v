(** Statements in the form of the properties, and worked examples. *)
From Coq Require Import String List Bool Arith ZArith Lia.
From Verif Require Import Dbl Outcome BaseFacts Problem Policies Migration Serialization SpecSerial SerialFacts.
Import ListNotations.
Local Open Scope list_scope.

Lemma problem_ok {U} (cu : codec U) d p : good_problem cu p -> restores (save_problem cu p) (load_problem cu d) (fun _ => p) /\ refuses_truncated (save_problem cu p) (load_problem cu d).
Proof. apply problem_reads. Qed.
Lemma population_ok {U G} (cu : codec U) (et : engine_text G) dp d p : good_population cu et p ->
  restores (save_population cu et p) (load_population cu et dp d) (fun _ => p) /\ refuses_truncated (save_population cu et p) (load_population cu et dp d).
Proof. apply population_reads. Qed.
Lemma archipelago_ok {UI UA UP UR US G UT} (ci : codec UI) (ca : codec UA) (cp : codec UP) (cr : codec UR) (cs : codec US) (et : engine_text G) dprob dpop dalgo drp dsp di (ct : codec UT) dt this fresh
  (a : archipelago_obj UI UA UP UR US G UT) : (forall p, In p (r_islands a) -> good_island ci ca cp cr cs et (snd p)) -> good_codec ct (n_ptr (r_topology a)) -> (forall i j, fresh i = fresh j -> i = j) ->
  (exists b, restores (save_archipelago ci ca cp cr cs et ct a) (load_archipelago ci ca cp cr cs et dprob dpop dalgo drp dsp di ct dt this fresh) (fun _ => b) /\ same_archipelago a b /\ linked this b) /\
  refuses_truncated (save_archipelago ci ca cp cr cs et ct a) (load_archipelago ci ca cp cr cs et dprob dpop dalgo drp dsp di ct dt this fresh).
Proof.
  intros GI GT INJ. destruct (archipelago_reads ci ca cp cr cs et dprob dpop dalgo drp dsp di ct dt this fresh a GI GT) as [R1 R2]. split; [|exact R2].
  eexists. split; [exact R1|]. split; [apply loaded_same|now apply loaded_linked].
Qed.

(** A small universe: user-defined objects with one name, an engine with two states. *)
Definition c_unit : codec unit := mkcodec (fun _ : unit => [TStr "null"]) (fun ts => match ts with TStr s :: r => if String.eqb s "null" then Ok (tt, r) else Throw archive_exception | _ => Throw archive_exception end).
Definition et_bool : engine_text bool := mket (fun b : bool => if b then "1"%string else "0"%string) (fun s : string => if String.eqb s "1" then Some true else if String.eqb s "0" then Some false else None) (fun _ : string => false).
Lemma good_unit u : good_codec c_unit u.
Proof. destruct u. split; [reflexivity|]. intros [|n] H; [eexists; reflexivity|cbn in H; lia]. Qed.
Lemma good_bool_engine b : good_engine et_bool b.
Proof. destruct b; reflexivity. Qed.
Definition sprob : problem_obj unit := mkprob tt 3 0 0 [dzero] [done] 1 0 0 0 [] false false false false false false "null problem" 1 [1%Z] TSbasic.
Definition dprob0 : problem_obj unit := mkprob tt 0 0 0 [dzero] [done] 1 0 0 0 [] false false false false false false "null problem" 1 [1%Z] TSbasic.
Definition spop : population_obj unit bool := mkpop sprob [7; 9]%Z [[dzero]; [done]] [[done]; [dzero]] [done] [dzero] true 5.
Definition dpop0 : population_obj unit bool := mkpop dprob0 [] [] [] [] [] false 0.
Definition salgo : algorithm_obj unit := mkalgo tt true false "algo" TSnone.
Definition snamed : named_obj unit := mknamed tt "pol".
Definition sisl : island_obj unit unit unit unit unit bool := mkisl tt salgo spop snamed snamed (Some 4).
Definition disl : island_obj unit unit unit unit unit bool := mkisl tt salgo dpop0 snamed snamed None.
Definition sarchi : archipelago_obj unit unit unit unit unit bool unit :=
  mkarchi [(40, sisl); (41, disl)] [(40, 0); (41, 1)] [mkgrp [7%Z] [[done]] [[dzero]]; mkgrp [] [] []] [mken dzero 7 [done] [dzero] 1 0] snamed Broadcast Evict.
Lemma good_sisl : good_island c_unit c_unit c_unit c_unit c_unit et_bool sisl.
Proof. repeat split; try apply good_unit. Qed.
Lemma good_disl : good_island c_unit c_unit c_unit c_unit c_unit et_bool disl.
Proof. repeat split; try apply good_unit. Qed.
Lemma serial_example : (forall p, In p (r_islands sarchi) -> good_island c_unit c_unit c_unit c_unit c_unit et_bool (snd p)) /\ good_codec c_unit (n_ptr (r_topology sarchi)) /\ (forall i j, 100 + i = 100 + j -> i = j).
Proof. split; [intros p [<-|[<-|[]]]; [apply good_sisl|apply good_disl]|]. split; [apply good_unit|]. intros; lia. Qed.

(** A malformed engine is not noticed. *)
Lemma engine_unnoticed : exists ts ts', save_population c_unit et_bool spop = ts /\ List.length ts' = List.length ts /\ (forall b, ~ In (TStr (e_to et_bool b)) ts') /\
  exists r p, load_population c_unit et_bool dprob0 dpop0 dpop0 ts' = (Ok r, p).
Proof.
  exists (save_population c_unit et_bool spop), (map (fun t => match t with TStr s => if String.eqb s "1" then TStr "garbage" else t | _ => t end) (save_population c_unit et_bool spop)).
  split; [reflexivity|]. split; [apply map_length|]. split.
  - intros b I. vm_compute in I. repeat (destruct I as [I|I]; [destruct b; discriminate|]). destruct I.
  - eexists. eexists. vm_compute. reflexivity.
Qed.
(** Nothing is checked about what was read. *)
Lemma unvalidated : exists ts r p, load_population c_unit et_bool dprob0 dpop0 dpop0 ts = (Ok r, p) /\ List.length (q_ID p) <> List.length (q_x p).
Proof. exists (save_population c_unit et_bool (mkpop sprob [7]%Z [] [] [] [] true 5)). eexists. eexists. split; [vm_compute; reflexivity|]. cbn. discriminate. Qed.
(** A failed load takes the island out of its archipelago. *)
Lemma detached : exists old ts e t, i_archi old <> None /\ load_island c_unit c_unit c_unit c_unit c_unit et_bool dprob0 dpop0 salgo snamed snamed disl old ts = (Throw e, t) /\ i_archi t = None.
Proof. exists sisl, [], archive_exception, disl. split; [discriminate|]. split; reflexivity. Qed.
Lemma all_reset :
  (forall U (cu : codec U) d, resets_on_failure (load_problem cu d) d) /\ (forall U (cu : codec U) d, resets_on_failure (load_algorithm cu d) d) /\
  (forall U (cu : codec U) d, resets_on_failure (load_named cu d) d) /\ (forall U (cu : codec U) d, resets_on_failure (load_bfe cu d) d) /\
  (forall U G (cu : codec U) (et : engine_text G) dp d, resets_on_failure (load_population cu et dp d) d) /\
  (forall UI UA UP UR US G (ci : codec UI) (ca : codec UA) (cp : codec UP) (cr : codec UR) (cs : codec US) (et : engine_text G) dprob dpop dalgo drp dsp d,
     resets_on_failure (load_island ci ca cp cr cs et dprob dpop dalgo drp dsp d) d) /\
  (forall UI UA UP UR US G UT (ci : codec UI) (ca : codec UA) (cp : codec UP) (cr : codec UR) (cs : codec US) (et : engine_text G) dprob dpop dalgo drp dsp di (ct : codec UT) dt this fresh,
     resets_on_failure (load_archipelago ci ca cp cr cs et dprob dpop dalgo drp dsp di ct dt this fresh) (mkarchi [] [] [] [] dt P2P Preserve)).
Proof. repeat split; intros; apply resets. Qed.
