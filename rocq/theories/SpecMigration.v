(** Vocabulary for C58 and C59. *)
From Coq Require Import List Bool Arith ZArith.
From Verif Require Import Dbl Outcome Problem Rng Population Policies SpecPolicies SpecGenetic Migration.
Import ListNotations.

Section S.
Context {G E : Type}.
(** All parts of the population but the individuals. *)
Definition same_but_individuals (p q : pop G) : Prop :=
  po_prob q = po_prob p /\ po_fevals q = po_fevals p /\ po_cx q = po_cx p /\ po_cf q = po_cf p /\ po_rng q = po_rng p.
(** Every individual has an ID and vectors of the problem's sizes. *)
Definition good_shape (p : pop G) : Prop :=
  length (po_x p) = length (po_id p) /\ length (po_f p) = length (po_id p) /\
  (forall x, In x (po_x p) -> length x = get_nx (po_prob p)) /\ (forall f, In f (po_f p) -> length f = get_nf (po_prob p)).
(** The groups put together in order. *)
Definition together (l : list (nat * group)) : group :=
  mkgrp (concat (map (fun p => g_id (snd p)) l)) (concat (map (fun p => g_x (snd p)) l)) (concat (map (fun p => g_f (snd p)) l)).
(** src is one of the connections, and a die came out below its weight. *)
Definition drawn (v : menv E) (conns : list nat * list dbl) (src : nat) : Prop :=
  exists j w d e, nth_error (fst conns) j = Some src /\ nth_error (snd conns) j = Some w /\ fst (v_die v e) = Ok d /\ dlt d w = true.
(** An environment that behaves: no undefined behaviour, as many weights as connections,
    draws inside their range. It may throw anything. *)
Definition sane (v : menv E) : Prop :=
  (forall i, always (v_conn v i) (fun c => length (snd c) = length (fst c)) (fun _ => True)) /\
  always (v_type v) (fun _ => True) (fun _ => True) /\ always (v_handling v) (fun _ => True) (fun _ => True) /\
  (forall n, 0 < n -> always (v_pick v n) (fun k => k < n) (fun _ => True)) /\ always (v_die v) (fun _ => True) (fun _ => True) /\
  (forall i, always (v_get v i) (fun _ => True) (fun _ => True)) /\ (forall i, always (v_extract v i) (fun _ => True) (fun _ => True)) /\
  (forall i g, always (v_put v i g) (fun _ => True) (fun _ => True)).
End S.
