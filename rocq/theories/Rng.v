(** Random number generation.

    A generator state of an arbitrary type [G], with the draws pagmo makes on it. What a
    draw returns is a parameter; [rng_contract] is what the C++ standard promises about
    it ([rand.dist]): uniform_real_distribution(a,b) needs a <= b finite with b - a not
    overflowing, uniform_int_distribution(a,b) needs a <= b; the results lie in the
    range. The upper end is included for reals because rounding may produce it (LWG
    2524). *)
From Coq Require Import List ZArith.
From Verif Require Import Dbl Outcome.
Import ListNotations.

Record rng (G : Type) := {
  g_real : dbl -> dbl -> G -> dbl * G;   (* std::uniform_real_distribution<double>(a, b)(e) *)
  g_int : Z -> Z -> G -> Z * G;          (* std::uniform_int_distribution<T>(a, b)(e) *)
  g_norm : dbl -> dbl -> G -> dbl * G    (* std::normal_distribution<double>(m, s)(e) *)
}.
Arguments g_real {G}.
Arguments g_int {G}.
Arguments g_norm {G}.

Record rng_contract {G} (r : rng G) : Prop := {
  real_in : forall a b g, isfinite a = true -> isfinite b = true -> dlt a b = true ->
      dle a (fst (g_real r a b g)) = true /\ dle (fst (g_real r a b g)) b = true;
  real_double : forall a b g, is_double a -> is_double b -> is_double (fst (g_real r a b g));
  int_in : forall a b g, (a <= b)%Z -> (a <= fst (g_int r a b g) <= b)%Z
}.

(** A computation that draws random numbers and may throw; the generator keeps the state
    it had when the exception was thrown. *)
Definition RM (G A : Type) : Type := G -> outcome A * G.
Definition rret {G A} (a : A) : RM G A := fun g => (Ok a, g).
Definition rlift {G A} (o : outcome A) : RM G A := fun g => (o, g).
Definition rbind {G A B} (m : RM G A) (f : A -> RM G B) : RM G B := fun g =>
  match m g with
  | (Ok a, g') => f a g'
  | (Throw e, g') => (Throw e, g')
  | (UB, g') => (UB, g')
  | (NoFuel, g') => (NoFuel, g')
  end.
Definition rdraw {G A} (d : G -> A * G) : RM G A := fun g => let (a, g') := d g in (Ok a, g').

(** Loops over a list: with a state, and collecting results. *)
Fixpoint rfold {G S A} (f : S -> A -> RM G S) (s : S) (l : list A) : RM G S :=
  match l with
  | [] => rret s
  | a :: l' => rbind (f s a) (fun s' => rfold f s' l')
  end.
Fixpoint rmap {G A B} (f : A -> RM G B) (l : list A) : RM G (list B) :=
  match l with
  | [] => rret []
  | a :: l' => rbind (f a) (fun b => rbind (rmap f l') (fun bs => rret (b :: bs)))
  end.

(** A concrete generator: a stream of integers, each draw consuming one. It meets the
    contract (non-vacuity). *)
Definition clamp_to (a b k : Z) : Z := Z.max a (Z.min b k).
Definition stream_rng : rng (list Z) :=
  {| g_real := fun a b g => match g with
       | [] => (match a with Fin _ => a | _ => dzero end, [])
       | k :: t => (match a, b with Fin x, Fin y => (if Z.even k then a else b) | _, _ => dzero end, t)
       end;
     g_int := fun a b g => match g with [] => (a, []) | k :: t => (clamp_to a b k, t) end;
     g_norm := fun m s g => match g with [] => (m, []) | k :: t => (d_of_Z k, t) end |}.
