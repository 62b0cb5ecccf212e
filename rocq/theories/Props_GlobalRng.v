(** C86: random_device, shared by all threads. *)
From Coq Require Import List Bool Arith ZArith Lia Permutation.
From Verif Require Import GlobalRng SpecGlobalRng GlobalRngFacts GlobalRngExamples.
Import ListNotations.

(** Whatever the threads call and however they are interleaved, what they see is what they would
    see if the calls of all the threads were made one at a time, in an order in which a call that
    returned before another was made also comes before it *)
Theorem C86_linearizable : forall (G : Type) (eng_next : G -> Z * G) (eng_seed : Z -> G) (g0 : G) (progs : list (list rcall)) (sched : list nat),
  linearizable eng_next eng_seed g0 progs (seen (rrun eng_next eng_seed (rstart g0 progs) sched)).
Proof. exact @rng_linearizable. Qed.
Print Assumptions C86_linearizable.
Example C86_linearizable_ex : seen (rrun tn ts (rstart 10%Z ex_progs) ex_sched)
  = [RCall 1 (SetSeed 40%Z); RCall 0 Next; RCall 2 Next; RRet 1 (SetSeed 40%Z) None; RRet 2 Next (Some 121%Z); RRet 0 Next (Some 142%Z);
     RCall 0 Next; RRet 0 Next (Some 163%Z); RCall 1 Next; RRet 1 Next (Some 184%Z)].
Proof. vm_compute. reflexivity. Qed.

(** With threads that only draw, no number of the sequence is lost and none is given out twice *)
Theorem C86_each_once : forall (G : Type) (eng_next : G -> Z * G) (eng_seed : Z -> G) (g0 : G) (progs : list (list rcall)) (sched : list nat),
  (forall p c, In p progs -> In c p -> c = Next) ->
  all_done (rrun eng_next eng_seed (rstart g0 progs) sched) ->
  Permutation (returned (seen (rrun eng_next eng_seed (rstart g0 progs) sched))) (numbers eng_next g0 (count_calls progs)).
Proof. exact @rng_shared. Qed.
Print Assumptions C86_each_once.
Example C86_each_once_ex : (forall p c, In p ex_nexts -> In c p -> c = Next) /\ all_done (rrun tn ts (rstart 10%Z ex_nexts) ex_sched2)
  /\ returned (seen (rrun tn ts (rstart 10%Z ex_nexts) ex_sched2)) = [73; 31; 52; 94; 115; 136]%Z.
Proof.
  split; [|split; [|vm_compute; reflexivity]].
  - intros p c Hp Hc. cbn in Hp. repeat destruct Hp as [<-|Hp]; cbn in Hc; intuition congruence.
  - intros t Ht. vm_compute in Ht. intuition congruence.
Qed.

(** In a program with one thread, what is drawn after set_seed(s) depends on s alone *)
Theorem C86_seeded : forall (G : Type) (eng_next : G -> Z * G) (eng_seed : Z -> G) (g0 : G) (pre : list rcall) (s : Z) (n : nat) (sched : list nat),
  all_done (rrun eng_next eng_seed (rstart g0 [pre ++ SetSeed s :: repeat Next n]) sched) ->
  exists l, returned (seen (rrun eng_next eng_seed (rstart g0 [pre ++ SetSeed s :: repeat Next n]) sched)) = l ++ numbers eng_next (eng_seed s) n
         /\ length l = length (filter (fun c => match c with Next => true | _ => false end) pre).
Proof. exact @rng_seeded. Qed.
Print Assumptions C86_seeded.
Example C86_seeded_ex : all_done (rrun tn ts (rstart 10%Z [[Next; SetSeed 3%Z; Next] ++ SetSeed 40%Z :: repeat Next 2]) ex_sched_alone)
  /\ returned (seen (rrun tn ts (rstart 10%Z [[Next; SetSeed 3%Z; Next] ++ SetSeed 40%Z :: repeat Next 2]) ex_sched_alone)) = [31; 10; 121; 142]%Z.
Proof. split; [intros t Ht; vm_compute in Ht; intuition congruence|vm_compute; reflexivity]. Qed.

(** No deadlock: as long as a thread has a call to make or to finish, some thread can go on; and
    the calls end, after 6 steps each, under every schedule that does not pick blocked threads only *)
Theorem C86_no_deadlock : forall (G : Type) (eng_next : G -> Z * G) (eng_seed : Z -> G) (g0 : G) (progs : list (list rcall)) (sched : list nat),
  all_done (rrun eng_next eng_seed (rstart g0 progs) sched) \/ (exists i s', rstep eng_next eng_seed (rrun eng_next eng_seed (rstart g0 progs) sched) i = Some s').
Proof. exact @rng_progress. Qed.
Print Assumptions C86_no_deadlock.
Example C86_no_deadlock_ex : rstep tn ts (rrun tn ts (rstart 10%Z ex_progs) [1; 0; 1]) 0 = None
  /\ rstep tn ts (rrun tn ts (rstart 10%Z ex_progs) [1; 0; 1]) 1 <> None.
Proof. split; [reflexivity|vm_compute; discriminate]. Qed.

Theorem C86_ends : forall (G : Type) (eng_next : G -> Z * G) (eng_seed : Z -> G) (g0 : G) (progs : list (list rcall)) (sched : list nat),
  effective eng_next eng_seed (rstart g0 progs) sched ->
  length sched = 6 * count_calls progs <-> all_done (rrun eng_next eng_seed (rstart g0 progs) sched).
Proof. exact @rng_ends. Qed.
Print Assumptions C86_ends.
Example C86_ends_ex : effective tn ts (rstart 10%Z ex_progs) ex_steps /\ length ex_steps = 6 * count_calls ex_progs.
Proof. split; [exact ex_effective|reflexivity]. Qed.
