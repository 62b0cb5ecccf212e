(** Specification vocabulary for populations. *)
From Coq Require Import List Bool Arith ZArith.
From Verif Require Import Dbl Outcome Compare Constrained Problem Rng Generic Population.
Import ListNotations.

(** Problem objects: constructed, then possibly given other tolerances. *)
Inductive prob_obj : problem -> Prop :=
| obj_new u p : construct u = Ok p -> prob_obj p
| obj_tol p t p' : prob_obj p -> set_c_tol p t = Ok p' -> prob_obj p'.

(** What the user can see of the individuals, and of the population except for the random
    engine and the evaluation counter. *)
Definition stored {G} (s : pop G) : Prop :=
  length (po_id s) = length (po_x s) /\ length (po_x s) = length (po_f s) /\
  (forall x, In x (po_x s) -> length x = get_nx (po_prob s)) /\
  (forall f, In f (po_f s) -> length f = get_nf (po_prob s)) /\
  (forall i, In i (po_id s) -> (0 <= i < 2 ^ 64)%Z).
Definition same_content {G} (s s' : pop G) : Prop :=
  po_prob s' = po_prob s /\ po_id s' = po_id s /\ po_x s' = po_x s /\ po_f s' = po_f s /\ po_cx s' = po_cx s /\ po_cf s' = po_cf s.

(** The decision and fitness vectors a successful call puts in the population. *)
Definition puts (p : problem) (o : pop_op) : list (list dbl * list dbl) :=
  match o with
  | PushBackXF x f | SetXF _ x f => [(x, f)]
  | PushBack x | SetX _ x => match u_fitness (p_udp p) x with Ok f => [(x, f)] | _ => [] end
  | RandomDV => []
  end.
(** Everything ever inserted in a history of calls, oldest first. *)
Fixpoint inserted (p : problem) (tr : list (pop_op * outcome unit)) : list (list dbl * list dbl) :=
  match tr with
  | [] => []
  | (o, Ok _) :: tr' => puts p o ++ inserted p tr'
  | (_, _) :: tr' => inserted p tr'
  end.

(** What a call does to the stored individuals. *)
Definition effect {G} (s : pop G) (o : pop_op) (s' : pop G) : Prop :=
  match o with
  | PushBack _ | PushBackXF _ _ => exists id x f, puts (po_prob s) o = [(x, f)] /\ (0 <= id < 2 ^ 64)%Z /\
        po_id s' = po_id s ++ [id] /\ po_x s' = po_x s ++ [x] /\ po_f s' = po_f s ++ [f]
  | SetX i _ | SetXF i _ _ => exists x f, puts (po_prob s) o = [(x, f)] /\ i < length (po_id s) /\ po_id s' = po_id s /\
        length (po_x s') = length (po_x s) /\ length (po_f s') = length (po_f s) /\
        nth_error (po_x s') i = Some x /\ nth_error (po_f s') i = Some f /\
        (forall j, j <> i -> nth_error (po_x s') j = nth_error (po_x s) j /\ nth_error (po_f s') j = nth_error (po_f s) j)
  | RandomDV => same_content s s'
  end.


(** Populations obtained from an empty one by any sequence of calls. *)
Definition reachable {G} (r : rng G) (p : problem) (s : pop G) : Prop := exists g ops tr, pop_run r (empty_pop p g) ops = (s, tr).

(** When a call on a population that is not full succeeds. *)
Definition call_ok {G} (r : rng G) (s : pop G) (o : pop_op) : Prop :=
  match o with
  | PushBackXF x f => length x = get_nx (po_prob s) /\ length f = get_nf (po_prob s)
  | SetXF i x f => i < length (po_id s) /\ length x = get_nx (po_prob s) /\ length f = get_nf (po_prob s)
  | PushBack x => length x = get_nx (po_prob s) /\ exists f, u_fitness (p_udp (po_prob s)) x = Ok f /\ length f = get_nf (po_prob s)
  | SetX i x => i < length (po_id s) /\ length x = get_nx (po_prob s) /\ exists f, u_fitness (p_udp (po_prob s)) x = Ok f /\ length f = get_nf (po_prob s)
  | RandomDV => is_ok (fst (random_decision_vector r (po_prob s) (po_rng s))) = true
  end.
