(** Model of pagmo::population (src/population.cpp, include/pagmo/population.hpp).

    The random engine is abstract (Rng.v). A call returns the new state of the object
    also when it throws. Memory exhaustion is not modelled, so the exception handler of
    push_back_impl is reached only through update_champion. *)
From Coq Require Import List Bool Arith ZArith.
From Verif Require Import Dbl Outcome StdSort Compare Constrained Problem Rng Generic.
Import ListNotations.

(** The data members, population.hpp:335-350 (m_seed is constant and left out). *)
Record pop (G : Type) := {
  po_prob : problem;
  po_fevals : Z;                      (* the evaluation counter of m_prob *)
  po_id : list Z; po_x : list (list dbl); po_f : list (list dbl);
  po_cx : list dbl; po_cf : list dbl; (* m_champion_x, m_champion_f *)
  po_rng : G }.
Arguments po_prob {G}. Arguments po_fevals {G}. Arguments po_id {G}. Arguments po_x {G}. Arguments po_f {G}.
Arguments po_cx {G}. Arguments po_cf {G}. Arguments po_rng {G}.

Section Pop.
Context {G : Type} (r : rng G).

(** A population before any individual is added: the members' initialisers. *)
Definition empty_pop (p : problem) (g : G) : pop G :=
  {| po_prob := p; po_fevals := 0; po_id := []; po_x := []; po_f := []; po_cx := []; po_cf := []; po_rng := g |}.
Definition with_rng (s : pop G) (g : G) : pop G :=
  {| po_prob := po_prob s; po_fevals := po_fevals s; po_id := po_id s; po_x := po_x s; po_f := po_f s; po_cx := po_cx s; po_cf := po_cf s; po_rng := g |}.
Definition with_fevals (s : pop G) (c : Z) : pop G :=
  {| po_prob := po_prob s; po_fevals := c; po_id := po_id s; po_x := po_x s; po_f := po_f s; po_cx := po_cx s; po_cf := po_cf s; po_rng := po_rng s |}.

(** update_champion, population.cpp:613-638: the new champion. *)
Definition update_champion (p : problem) (cx cf x f : list dbl) : outcome (list dbl * list dbl) :=
  if negb (Nat.eqb (p_nobj p) 1) then Ok (cx, cf)
  else if Nat.eqb (length cx) 0 then Ok (x, f)
  else if Nat.eqb (get_nc p) 0 then
    bind (vget f 0) (fun a => bind (vget cf 0) (fun b => Ok (if less_than_f a b then (x, f) else (cx, cf))))
  else
    bind (compare_fc f cf (p_nec p) (p_ctol p)) (fun b => Ok (if b then (x, f) else (cx, cf))).

(** push_back_impl, population.cpp:569-610. The new id is drawn before the vectors are
    touched; the handler of lines 604-609 restores the vectors. *)
Definition push_back_impl (s : pop G) (x f : list dbl) : pop G * outcome unit :=
  if negb (Nat.eqb (length x) (get_nx (po_prob s))) then (s, Throw InvalidArgument)
  else if negb (Nat.eqb (length f) (get_nf (po_prob s))) then (s, Throw InvalidArgument)
  else if ((Z.of_nat (length (po_id s)) =? u64max) || (Z.of_nat (length (po_x s)) =? u64max))%Z then (s, Throw OverflowError)
  else
    let (new_id, g) := g_int r 0 u64max (po_rng s) in
    match update_champion (po_prob s) (po_cx s) (po_cf s) x f with
    | Ok (cx, cf) =>
        ({| po_prob := po_prob s; po_fevals := po_fevals s; po_id := po_id s ++ [new_id]; po_x := po_x s ++ [x]; po_f := po_f s ++ [f];
            po_cx := cx; po_cf := cf; po_rng := g |}, Ok tt)
    | Throw e => (with_rng s g, Throw e)
    | UB => (with_rng s g, UB)
    | NoFuel => (with_rng s g, NoFuel)
    end.

(** m_prob.fitness(x) as an argument of another call: on exception that call is not made. *)
Definition with_fitness (s : pop G) (x : list dbl) (k : pop G -> list dbl -> pop G * outcome unit) : pop G * outcome unit :=
  match fitness (po_prob s) (po_fevals s) x with
  | (Ok f, c) => k (with_fevals s c) f
  | (Throw e, c) => (with_fevals s c, Throw e)
  | (UB, c) => (with_fevals s c, UB)
  | (NoFuel, c) => (with_fevals s c, NoFuel)
  end.

(** push_back(x), population.cpp:182-185; push_back(x, f), 217-220. *)
Definition push_back (s : pop G) (x : list dbl) := with_fitness s x (fun s' f => push_back_impl s' x f).
Definition push_back_xf (s : pop G) (x f : list dbl) := push_back_impl s x f.

(** set_xf, population.cpp:490-519 *)
Definition set_xf (s : pop G) (i : nat) (x f : list dbl) : pop G * outcome unit :=
  if Nat.leb (length (po_id s)) i then (s, Throw InvalidArgument)
  else if negb (Nat.eqb (length f) (get_nf (po_prob s))) then (s, Throw InvalidArgument)
  else if negb (Nat.eqb (length x) (get_nx (po_prob s))) then (s, Throw InvalidArgument)
  else
    match bind (update_champion (po_prob s) (po_cx s) (po_cf s) x f) (fun c =>
          bind (vset (po_x s) i x) (fun xs => bind (vset (po_f s) i f) (fun fs => Ok (c, xs, fs)))) with
    | Ok (cx, cf, xs, fs) =>
        ({| po_prob := po_prob s; po_fevals := po_fevals s; po_id := po_id s; po_x := xs; po_f := fs; po_cx := cx; po_cf := cf; po_rng := po_rng s |}, Ok tt)
    | Throw e => (s, Throw e)
    | UB => (s, UB)
    | NoFuel => (s, NoFuel)
    end.
(** set_x, population.cpp:539-542: the fitness is evaluated before the index is checked. *)
Definition set_x (s : pop G) (i : nat) (x : list dbl) := with_fitness s x (fun s' f => set_xf s' i x f).

(** random_decision_vector, population.cpp:246-249 *)
Definition pop_random_dv (s : pop G) : pop G * outcome (list dbl) :=
  match random_decision_vector r (po_prob s) (po_rng s) with (o, g) => (with_rng s g, o) end.

(** The modifying calls of the public interface. *)
Inductive pop_op :=
| PushBack (x : list dbl)
| PushBackXF (x f : list dbl)
| SetX (i : nat) (x : list dbl)
| SetXF (i : nat) (x f : list dbl)
| RandomDV.
Definition pop_step (s : pop G) (o : pop_op) : pop G * outcome unit :=
  match o with
  | PushBack x => push_back s x
  | PushBackXF x f => push_back_xf s x f
  | SetX i x => set_x s i x
  | SetXF i x f => set_xf s i x f
  | RandomDV => let (s', v) := pop_random_dv s in (s', bind v (fun _ => Ok tt))
  end.
(** A history of calls with what each returned; the caller goes on after exceptions. *)
Fixpoint pop_run (s : pop G) (ops : list pop_op) : pop G * list (pop_op * outcome unit) :=
  match ops with
  | [] => (s, [])
  | o :: ops' => let (s1, res) := pop_step s o in let (s2, tr) := pop_run s1 ops' in (s2, (o, res) :: tr)
  end.

(** ** Constructors *)
(** Actions on the engine and on the counter, the two mutable parts used while generating. *)
Definition on_rng {A} (m : RM G A) : RM (Z * G) A := fun cg =>
  let (o, g) := m (snd cg) in (o, (fst cg, g)).
Definition on_fevals {A} (m : Z -> outcome A * Z) : RM (Z * G) A := fun cg =>
  let (o, c) := m (fst cg) in (o, (c, snd cg)).

(** The loops that append (population.cpp:75-77 and 99-102). *)
Fixpoint push_all (s : pop G) (l : list (list dbl * list dbl)) : outcome (pop G) :=
  match l with
  | [] => Ok s
  | (x, f) :: l' => match push_back_impl s x f with (s', Ok _) => push_all s' l' | (_, Throw e) => Throw e | (_, UB) => UB | (_, NoFuel) => NoFuel end
  end.

(** prob_ctor_impl, population.cpp:62-78. The counter of a freshly copied problem is [c0]. *)
Definition prob_ctor (p : problem) (c0 : Z) (n : nat) (g : G) : outcome (pop G) :=
  match rmap (fun _ => rbind (on_rng (random_decision_vector r p)) (fun x =>
                       rbind (on_fevals (fun c => fitness p c x)) (fun f => rret (x, f)))) (seq 0 n) (c0, g) with
  | (Ok tmp, (c, g')) => push_all (with_fevals (empty_pop p g') c) tmp
  | (Throw e, _) => Throw e
  | (UB, _) => UB
  | (NoFuel, _) => NoFuel
  end.

(** constructor_from_bfe_impl, population.cpp:82-103; [ud] is the user's evaluator. *)
Definition chunk {A} (l : list A) (i w : nat) : list A := firstn w (skipn (i * w) l).
Definition bfe_ctor (ud : problem -> list dbl -> outcome (list dbl)) (p : problem) (c0 : Z) (n : nat) (g : G) : outcome (pop G) :=
  match batch_random_decision_vector r p n g with
  | (Ok dvs, g') =>
      match bfe_call ud p c0 dvs with
      | (Ok fvs, c) => push_all (with_fevals (empty_pop p g') c)
                         (map (fun i => (chunk dvs i (get_nx p), chunk fvs i (get_nf p))) (seq 0 n))
      | (Throw e, _) => Throw e
      | (UB, _) => UB
      | (NoFuel, _) => NoFuel
      end
  | (Throw e, _) => Throw e
  | (UB, _) => UB
  | (NoFuel, _) => NoFuel
  end.

(** ** Queries *)
(** std::vector<double>::operator<, i.e. std::lexicographical_compare with < on doubles. *)
Fixpoint vec_lt (a b : list dbl) : bool :=
  match a, b with
  | _, [] => false
  | [], _ :: _ => true
  | x :: a', y :: b' => if dlt x y then true else if dlt y x then false else vec_lt a' b'
  end.

(** best_idx(tol), population.cpp:287-311; the overflow check of lines 302-306 cannot fail
    for containers that fit in memory. *)
Definition best_idx_tol (srt : sorter) (s : pop G) (tol : list dbl) : outcome nat :=
  if Nat.eqb (length (po_id s)) 0 then Throw InvalidArgument
  else if Nat.ltb 1 (p_nobj (po_prob s)) then Throw InvalidArgument
  else if Nat.ltb 0 (get_nc (po_prob s)) then
    bind (sort_population_con srt (po_f s) (p_nec (po_prob s)) tol) (fun l => vget l 0)
  else match min_element vec_lt (po_f s) with Some i => Ok i | None => UB end.
(** worst_idx(tol), population.cpp:371-396 *)
Definition worst_idx_tol (srt : sorter) (s : pop G) (tol : list dbl) : outcome nat :=
  if Nat.eqb (length (po_id s)) 0 then Throw InvalidArgument
  else if Nat.ltb 1 (p_nobj (po_prob s)) then Throw InvalidArgument
  else if Nat.ltb 0 (get_nc (po_prob s)) then
    bind (sort_population_con srt (po_f s) (p_nec (po_prob s)) tol) (fun l => vget l (length l - 1))
  else match max_element vec_lt (po_f s) with Some i => Ok i | None => UB end.
(** best_idx(), population.cpp:271-274; worst_idx(), 347-350; the scalar overloads, 321-325
    and 406-410. *)
Definition best_idx srt s := best_idx_tol srt s (p_ctol (po_prob s)).
Definition worst_idx srt s := worst_idx_tol srt s (p_ctol (po_prob s)).
Definition best_idx_scalar srt s (t : dbl) := best_idx_tol srt s (repeat t (get_nf (po_prob s) - 1)).
Definition worst_idx_scalar srt s (t : dbl) := worst_idx_tol srt s (repeat t (get_nf (po_prob s) - 1)).

(** champion_x, champion_f, population.cpp:427-466; a problem is stochastic when the user
    provides set_seed(). *)
Definition champion (s : pop G) : outcome (list dbl * list dbl) :=
  if Nat.ltb 1 (p_nobj (po_prob s)) then Throw InvalidArgument
  else if u_set_seed (p_udp (po_prob s)) then Throw InvalidArgument
  else Ok (po_cx s, po_cf s).
End Pop.
