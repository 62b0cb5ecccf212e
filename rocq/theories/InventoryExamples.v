(** A toy engine for inventory: 1/4, 1/2, 3/4, 0, ... from a seed on. *)
From Coq Require Import List ZArith Bool.
Import ListNotations.
From Verif Require Import Outcome Dbl DblFacts Inventory SpecInventory.
Definition iv_seed (s : Z) : Z := s.
Definition iv_u (g : Z) : dbl * Z := (match (g mod 4)%Z with 0%Z => dzero | 1%Z => ddiv (d_of_Z 1) (d_of_Z 4) | 2%Z => ddiv (d_of_Z 1) (d_of_Z 2) | _ => ddiv (d_of_Z 3) (d_of_Z 4) end, (g + 1)%Z).
Lemma iv_unit : unit_numbers iv_u.
Proof.
  intros e. unfold iv_u. cbn [fst].
  assert (A : forall d, dle dzero d && dle d done = true -> dle dzero d = true /\ dle d done = true) by (intros d H; apply andb_prop; exact H).
  destruct (e mod 4)%Z as [|[[|[]|]|[|[]|]|]|]; apply A; vm_compute; reflexivity.
Qed.
Definition iv_x : list dbl := [d_of_Z 50; d_of_Z 20].
Lemma iv_range : in_range iv_x.
Proof. intros o [<-|[<-|[]]]; split; vm_compute; reflexivity. Qed.
