(** Vocabulary for MOEA/D. *)
From Coq Require Import List Bool Arith ZArith Permutation.
From Verif Require Import Dbl Outcome MultiObj SpecMultiObj Problem SpecGeneric Population SpecAlgo.
Import ListNotations.

(** One weight vector per individual, with one weight per objective *)
Definition weights_for (nf NP : nat) (ws : list (list dbl)) : Prop := length ws = NP /\ forall w, In w ws -> length w = nf.
(** f is better than g on the subproblem with weights w, seen from the point z. *)
Definition improves (m : dmethod) (w z f g : list dbl) : Prop :=
  exists v v', decompose_objectives f w z m = Ok [v] /\ decompose_objectives g w z m = Ok [v'] /\ dlt v v' = true.
(** From s to s' exactly the individuals in R were overwritten by (x, f). *)
Definition overwrites {P} (x f : list dbl) (R : list nat) (s s' : pop P) : Prop :=
  po_prob s' = po_prob s /\ po_id s' = po_id s /\ length (po_x s') = length (po_x s) /\ length (po_f s') = length (po_f s) /\ NoDup R /\
  (forall i, In i R -> nth_error (po_x s') i = Some x /\ nth_error (po_f s') i = Some f) /\
  (forall i, ~ In i R -> nth_error (po_x s') i = nth_error (po_x s) i /\ nth_error (po_f s') i = nth_error (po_f s) i).
(** Individual i of s is worse than f on its own subproblem. *)
Definition beaten {P} (m : dmethod) (ws : list (list dbl)) (z : list dbl) (s : pop P) (f : list dbl) (i : nat) : Prop :=
  exists w g, nth_error ws i = Some w /\ nth_error (po_f s) i = Some g /\ improves m w z f g.
(** The smaller of two numbers; a NaN on the right stays until a number comes. *)
Definition lower (a b c : dbl) : Prop := (c = a /\ dlt a b = true) \/ (c = b /\ dlt a b = false).
Definition lowered (z f z' : list dbl) : Prop := length z' = length z /\ forall j a b c, nth_error z j = Some a -> nth_error f j = Some b -> nth_error z' j = Some c -> lower a b c.

Section Run.
Context {P : Type} (m : dmethod) (limit : nat) (div : bool) (Box : list dbl -> Prop) (ws : list (list dbl)) (neigh : list (list nat)).
(** The step for subproblem n: a point is evaluated, lowers the ideal point, and takes the
    places R of individuals that it beats on their subproblems. Without diversity preservation
    these are all such individuals among n and its neighbours. With it, n is taken if beaten;
    and there are at most [limit] of them, or two. *)
Definition moead_step (n : nat) (z : list dbl) (s : pop P) (z' : list dbl) (s' : pop P) : Prop :=
  exists x f R nb, evaluated (po_prob s) x f /\ Box x /\ lowered z f z' /\ overwrites x f R s s' /\
    (forall i, In i R -> beaten m ws z' s f i) /\ (beaten m ws z' s f n -> In n R) /\
    nth_error neigh n = Some nb /\
    (div = false -> (forall i, In i R -> i = n \/ In i nb) /\ forall i, i = n \/ In i nb -> beaten m ws z' s f i -> In i R) /\
    (div = true -> length R <= Nat.max limit 2).
Inductive moead_steps : list nat -> list dbl -> pop P -> list dbl -> pop P -> Prop :=
| ms_none z s : moead_steps [] z s z s
| ms_more n ns z s z1 s1 z2 s2 : moead_steps ns z s z1 s1 -> moead_step n z1 s1 z2 s2 -> moead_steps (ns ++ [n]) z s z2 s2.
(** Every generation visits each subproblem once. *)
Inductive moead_generations (NP : nat) : nat -> list dbl -> pop P -> list dbl -> pop P -> Prop :=
| mg_none z s : moead_generations NP 0 z s z s
| mg_more k ns z s z1 s1 z2 s2 : moead_generations NP k z s z1 s1 -> Permutation (seq 0 NP) ns -> moead_steps ns z1 s1 z2 s2 -> moead_generations NP (S k) z s z2 s2.
End Run.

(** Random numbers drawn from [0, 1) are below 1. *)
Definition below_one {G} (r : Rng.rng G) : Prop := forall g, dlt (fst (Rng.g_real r dzero done g)) done = true.

(** A run of gen generations: every individual has a weight vector and, as neighbours, the
    individuals with the k nearest weight vectors; the first ideal point has the least value of
    each objective. *)
Definition moead_run {P} (m : dmethod) (limit : nat) (div : bool) (Box : list dbl -> Prop) (k gen : nat) (s s' : pop P) : Prop :=
  let NP := length (po_id s) in let nf := get_nf (po_prob s) in
  exists ws neigh z z', weights_for nf NP ws /\
    length neigh = NP /\ (forall i l, nth_error neigh i = Some l -> nearest ws i k l) /\
    length z = nf /\ (forall j, j < nf -> exists v, nth_error z j = Some v /\ is_min_of (po_f s) (fun _ => True) j v) /\
    moead_generations m limit div Box ws neigh NP gen z s z' s'.
