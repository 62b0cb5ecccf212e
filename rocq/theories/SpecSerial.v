(** Vocabulary for C60. *)
From Coq Require Import String List Bool Arith ZArith.
From Verif Require Import Dbl Outcome Problem Policies Migration Serialization.
Import ListNotations.
Local Open Scope list_scope.

(** What the user's serialization of the object u must do: read back what it wrote, leave the
    rest of the stream alone, and throw when the stream ends early. *)
Definition good_codec {A} (c : codec A) (u : A) : Prop :=
  (forall rest, dec c (enc c u ++ rest) = Ok (u, rest)) /\ (forall n, n < List.length (enc c u) -> exists e, dec c (firstn n (enc c u)) = Throw e).
(** operator>> reads back what operator<< wrote. *)
Definition good_engine {G} (t : engine_text G) (g : G) : Prop := e_of t (e_to t g) = Some g.

(** Whatever the target was, loading the saved x makes it [expect old], and what follows in the
    stream stays. *)
Definition restores {T} (saved : stream) (load : loader T) (expect : T -> T) : Prop := forall old rest, load old (saved ++ rest) = (Ok rest, expect old).
(** Every proper prefix is refused. *)
Definition refuses_truncated {T} (saved : stream) (load : loader T) : Prop := forall old n, n < List.length saved -> exists e t, load old (firstn n saved) = (Throw e, t).
(** Whatever is in the stream: a load that throws leaves the default-constructed object. *)
Definition resets_on_failure {T} (load : loader T) (default : T) : Prop := forall old ts e t, load old ts = (Throw e, t) -> t = default.

(** The user-defined parts of the objects have good serializations. *)
Definition good_problem {U} (cu : codec U) (p : problem_obj U) : Prop := good_codec cu (m_ptr p).
Definition good_population {U G} (cu : codec U) (et : engine_text G) (p : population_obj U G) : Prop := good_problem cu (q_prob p) /\ good_engine et (q_e p).
Definition good_island {UI UA UP UR US G} (ci : codec UI) (ca : codec UA) (cp : codec UP) (cr : codec UR) (cs : codec US) (et : engine_text G) (i : island_obj UI UA UP UR US G) : Prop :=
  good_codec ci (i_ptr i) /\ good_codec ca (a_ptr (i_algo i)) /\ good_population cp et (i_pop i) /\ good_codec cr (n_ptr (i_rpol i)) /\ good_codec cs (n_ptr (i_spol i)).
(** The island x, but in the archipelago [a]. *)
Definition placed {UI UA UP UR US G} (a : option nat) (x : island_obj UI UA UP UR US G) : island_obj UI UA UP UR US G :=
  mkisl (i_ptr x) (i_algo x) (i_pop x) (i_rpol x) (i_spol x) a.
(** b is a, with islands that are the same up to their addresses. *)
Definition same_archipelago {UI UA UP UR US G UT} (a b : archipelago_obj UI UA UP UR US G UT) : Prop :=
  map (fun p => placed None (snd p)) (r_islands b) = map (fun p => placed None (snd p)) (r_islands a) /\
  r_migrants b = r_migrants a /\ r_log b = r_log a /\ r_topology b = r_topology a /\ r_type b = r_type a /\ r_handling b = r_handling a.
(** The islands point to their archipelago and the index map says where they are. *)
Definition linked {UI UA UP UR US G UT} (this : nat) (a : archipelago_obj UI UA UP UR US G UT) : Prop :=
  (forall p, In p (r_islands a) -> i_archi (snd p) = Some this) /\
  (forall addr i, In (addr, i) (r_idx_map a) <-> exists x, nth_error (r_islands a) i = Some (addr, x)) /\ NoDup (map fst (r_idx_map a)).
