(** A toy engine and three threads. *)
From Coq Require Import List Bool Arith ZArith Lia Permutation.
From Verif Require Import GlobalRng SpecGlobalRng.
Import ListNotations.
Definition tn (g : Z) : Z * Z := ((g * 3 + 1)%Z, (g + 7)%Z).
Definition ts (s : Z) : Z := s.
Definition ex_progs : list (list rcall) := [[Next; Next]; [SetSeed 40%Z; Next]; [Next]].
(** Thread 1 has the mutex while 0 and 2 are at the lock; steps of blocked threads are lost *)
Definition ex_sched : list nat := [1;0;2; 1;0;2;0; 1;1;0;1;1; 2;2;2;2;2; 0;0;0;0;0;0;0;0;0;0;0; 1;1;1;1;1;1].
Definition ex_nexts : list (list rcall) := [[Next; Next]; [Next]; [Next; Next; Next]].
Definition ex_sched2 : list nat := [0;0;0;0;0; 2;1;2;2;1;2;2; 1;1;1;1;1; 0;2] ++ repeat 2 12 ++ repeat 0 6.
Definition ex_sched_alone : list nat := repeat 0 40.
(** The same programs with every step effective *)
Definition ex_steps : list nat := repeat 0 12 ++ repeat 1 12 ++ repeat 2 6.
Lemma ex_effective : effective tn ts (rstart 10%Z ex_progs) ex_steps.
Proof. unfold ex_steps. cbn. repeat (eexists; split; [reflexivity|]; cbn). exact I. Qed.
