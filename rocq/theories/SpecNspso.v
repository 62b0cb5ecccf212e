(** Vocabulary for NSPSO. *)
From Coq Require Import List Bool Arith ZArith.
From Verif Require Import Dbl Outcome Problem SpecOrder SpecProblem SpecGeneric Population SpecPopulation SpecAlgo AlgNspso.
Import ListNotations.

(** Problems with two or more objectives, no constraints and no noise *)
Definition np_problem (p : problem) : Prop := u_set_seed (p_udp p) = false /\ get_nc p = 0 /\ 2 <= get_nf p.
(** The exceptions: those of the fitness function; invalid_argument if the velocities of some
    component cannot be drawn *)
Definition np_fails (a : nspso_params) (p : problem) (e : exn) : Prop := fitness_throws p e \/
  (e = InvalidArgument /\ exists i l u, nth_error (p_lb p) i = Some l /\ nth_error (p_ub p) i = Some u /\ let w := dmul (dsub u l) (np_vcoeff a) in ~ ok_real (dneg w) w).
(** What the object has kept from an earlier call, if this will be used for n individuals, has
    the dimensions of the problem. *)
Definition np_fits (a : nspso_params) (p : problem) (n : nat) (m : nspso_mem) : Prop := np_memory a = true ->
  (length (nm_f m) = n -> length (nm_x m) = n /\ (forall x, In x (nm_x m) -> length x = get_nx p) /\ (forall f, In f (nm_f m) -> length f = get_nf p)) /\
  (length (nm_v m) = n -> forall v, In v (nm_v m) -> get_nx p <= length v).
(** The points remembered when the first generation starts *)
Definition np_first {P} (a : nspso_params) (m : nspso_mem) (s : pop P) (b : list (list dbl) * list (list dbl)) : Prop :=
  let kept := np_memory a = true /\ length (nm_f m) = length (po_id s) in
  (kept -> b = (nm_x m, nm_f m)) /\ (~ kept -> b = (po_x s, po_f s)).
(** One generation. All individuals are replaced by new points. The remembered points are
    chosen among the new ones and those remembered before; with crowding distance or niche
    count none that is left out dominates one that is chosen. *)
Definition np_step {P} (p : problem) (Box : list dbl -> Prop) (d : diversity) (b : list (list dbl) * list (list dbl)) (s : pop P) (b' : list (list dbl) * list (list dbl)) (s' : pop P) : Prop :=
  po_prob s' = p /\ po_id s' = po_id s /\ valid_pop s' /\ evals (length (po_id s)) s s' /\
  Forall2 (fun x f => evaluated p x f /\ Box x) (po_x s') (po_f s') /\
  exists sel, NoDup sel /\ length sel = length (po_id s) /\
    Forall2 (fun i x => nth_error (po_x s' ++ fst b) i = Some x) sel (fst b') /\ Forall2 (fun i f => nth_error (po_f s' ++ snd b) i = Some f) sel (snd b') /\
    (d <> MaxMin -> forall i j, In i sel -> ~ In j sel -> ~ dom_idx (po_f s' ++ snd b) j i).
Inductive np_steps {P} (p : problem) (Box : list dbl -> Prop) (d : diversity) : nat -> list (list dbl) * list (list dbl) -> pop P -> list (list dbl) * list (list dbl) -> pop P -> Prop :=
| np_none b s : np_steps p Box d 0 b s b s
| np_one n b s b1 s1 b2 s2 : np_steps p Box d n b s b1 s1 -> np_step p Box d b1 s1 b2 s2 -> np_steps p Box d (S n) b s b2 s2.
(** The parameters the constructor is meant to accept; NaN passes all its tests. *)
Definition nan_or (x : dbl) (Q : Prop) : Prop := x = NaN \/ Q.
Definition np_accepts (omega c1 c2 chi vcoeff : dbl) (range : nat) : Prop :=
  nan_or omega (within dzero done omega) /\ nan_or c1 (dlt dzero c1 = true) /\ nan_or c2 (dlt dzero c2 = true) /\ nan_or chi (dlt dzero chi = true) /\
  nan_or vcoeff (dlt dzero vcoeff = true /\ dle vcoeff done = true) /\ range <= 100.
Definition np_made (a : nspso_params) : Prop := np_accepts (np_omega a) (np_c1 a) (np_c2 a) (np_chi a) (np_vcoeff a) (np_range a).
(** Coefficients that are numbers and at most 4 *)
Definition np_moderate (a : nspso_params) : Prop :=
  within dzero done (np_omega a) /\ within dzero (d_of_Z 4) (np_c1 a) /\ within dzero (d_of_Z 4) (np_c2 a) /\ within dzero (d_of_Z 4) (np_chi a) /\
  dlt dzero (np_vcoeff a) = true /\ dle (np_vcoeff a) done = true /\ np_range a <= 100.
Definition below_2p901 (x : dbl) : Prop := exists z, x = Fin z /\ (Z.abs z <= 2 ^ 1975)%Z.
