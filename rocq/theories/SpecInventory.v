(** The costs of an ordering plan, for given demands; what a uniform distribution is. *)
From Coq Require Import List ZArith Bool.
Import ListNotations.
From Verif Require Import Outcome Dbl Inventory.

(** Weekly orders x against weekly demands d, with k in stock: the sum is taken in the order of
    the weeks, starting from r *)
Fixpoint plan_cost (r k : dbl) (x d : list dbl) : dbl :=
  match x, d with
  | o :: x', w :: d' =>
      let units := dmul (d_of_Z 1) o in                                           (* cost per unit 1 *)
      let backorder := dmul (ddiv (d_of_Z 3) (d_of_Z 2)) (dmax (dsub (dsub w k) o) dzero) in  (* 1.5 per unit missing *)
      let holding := dmul (ddiv (d_of_Z 1) (d_of_Z 10)) (dmax (dsub (dadd k o) w) dzero) in   (* 0.1 per unit left *)
      plan_cost (dadd r (dadd (dadd units backorder) holding)) (dmax dzero (dsub (dadd k o) w)) x' d'
  | _, _ => r
  end.
(** n demands drawn one after the other *)
Fixpoint demands {G} (u01 : G -> dbl * G) (e : G) (n : nat) : list dbl * G :=
  match n with
  | 0 => ([], e)
  | S m => let (u, e1) := u01 e in let (l, e2) := demands u01 e1 m in (dmul u (d_of_Z 100) :: l, e2)
  end.
(** n scenarios one after the other, with fresh demands each *)
Fixpoint scenarios {G} (u01 : G -> dbl * G) (e : G) (n : nat) (x : list dbl) (r : dbl) : dbl :=
  match n with
  | 0 => r
  | S m => let (d, e') := demands u01 e (length x) in scenarios u01 e' m x (plan_cost r dzero x d)
  end.
(** The mean cost over the scenarios of a seed *)
Definition mean_cost {G} (eng_seed : Z -> G) (u01 : G -> dbl * G) (n : nat) (seed : Z) (x : list dbl) : dbl :=
  ddiv (scenarios u01 (eng_seed seed) n x dzero) (d_of_Z (Z.of_nat n)).
(** Numbers in [0, 1] *)
Definition unit_numbers {G} (u01 : G -> dbl * G) : Prop := forall e, dle dzero (fst (u01 e)) = true /\ dle (fst (u01 e)) done = true.
(** The seed in force after some calls *)
Definition seed_after (l : list icall) (s0 : Z) : Z := fold_left (fun s c => match c with ISetSeed s' => s' | IFitness _ => s end) l s0.
Definition in_range (x : list dbl) : Prop := forall o, In o x -> dle dzero o = true /\ dle o (d_of_Z 200) = true.
