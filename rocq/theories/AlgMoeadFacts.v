From Coq Require Import List Bool Arith ZArith Lia Permutation.
From Verif Require Import Dbl DblFacts Outcome BaseFacts StdSort MultiObj SpecMultiObj MultiObjFacts2 DecomposeFacts Weights Problem SpecProblem Rng Generic SpecGeneric GenericFacts3
  SpecGenetic RmFacts GeneticOps GeneticFacts Population SpecPopulation Algo SpecAlgo AlgoFacts AlgoFacts2 AlgSga SpecSga SpecNsga2 AlgNsga2Facts3 AlgMoead SpecMoead.
Import ListNotations.

Lemma dlt_irr v : dlt v v = false.
Proof. destruct v; try reflexivity. apply Z.ltb_irrefl. Qed.
Lemma dlt_asym u v : dlt u v = true -> dlt v u = false.
Proof. destruct u, v; try discriminate; try reflexivity. cbn. rewrite Z.ltb_lt, Z.ltb_ge. lia. Qed.
Lemma ideal_step z : forall f, length f = length z -> lowered z f (moead_ideal z f).
Proof.
  induction z as [|a z IH]; intros [|b f] L; try discriminate.
  - split; [reflexivity|]. intros [|j] ? ? ? E; discriminate E.
  - injection L as L. destruct (IH f L) as [L' H]. cbn [moead_ideal]. split; [cbn; congruence|]. intros [|j] a' b' c E1 E2 E3; [|exact (H j a' b' c E1 E2 E3)].
    cbn in E1, E2, E3. injection E1 as <-. injection E2 as <-. injection E3 as <-. unfold lower, dmin. destruct (dlt a b) eqn:E.
    + left. rewrite (dlt_asym a b E). auto.
    + right. rewrite dlt_irr. auto.
Qed.

Section Insert.
Context {G P : Type} {W : Prop} (shuf : forall A, list A -> G -> list A * G) (SC : shuffle_contract shuf) (a : moead_params).
Context (s0 : pop P) (V0 : valid_pop s0) (ws : list (list dbl)) (HW : weights_for (get_nf (po_prob s0)) (length (po_id s0)) ws).
Context (DM : me_dec a <> OtherMethod) (NF : 0 < get_nf (po_prob s0)).
Context (z x f : list dbl) (Lz : length z = get_nf (po_prob s0)) (EV : evaluated (po_prob s0) x f).
Let NP := length (po_id s0).

(** (x, f) took the places R. *)
Definition placed (R : list nat) (s : G * pop P) : Prop :=
  valid_pop (snd s) /\ po_fevals (snd s) = po_fevals s0 /\ overwrites x f R s0 (snd s) /\ forall i, In i R -> i < NP /\ beaten (me_dec a) ws z s0 f i.
Lemma placed_start (g : G) : placed [] (g, s0).
Proof.
  split; [exact V0|]. split; [reflexivity|]. split; [|intros i []]. split; [reflexivity|]. split; [reflexivity|]. split; [reflexivity|]. split; [reflexivity|]. split; [apply NoDup_nil|].
  split; [intros i []|]. intros i _. split; reflexivity.
Qed.
Lemma try_ok R s i (E : exn -> Prop) : placed R s -> i < NP ->
  ends_w W (moead_try a ws z x f i) s (fun b s' => if b then ~ In i R /\ placed (i :: R) s' else s' = s /\ (In i R \/ ~ beaten (me_dec a) ws z s0 f i)) E.
Proof.
  intros (V & FE & OV & BT) Hi. pose proof OV as (E1 & E2 & E3 & E4 & ND & IN & OUT). pose proof V as (PO & (L1 & L2 & Fx & Ff & _) & _). pose proof V0 as (_ & (M1 & M2 & _ & Mf & _) & _). destruct EV as (Lx & Lf & _). destruct HW as [LW HWw].
  assert (K1 : length (po_x (snd s)) = NP) by (rewrite <- L1, E2; reflexivity). assert (K2 : length (po_f (snd s)) = NP) by (rewrite <- L2; exact K1).
  destruct (vget_in_range (po_f (snd s)) i) as (fi & Ei & Ni); [rewrite K2; exact Hi|]. destruct (vget_in_range ws i) as (w & Ew & Nw); [rewrite LW; exact Hi|].
  assert (Lfi : length fi = get_nf (po_prob s0)) by (rewrite <- E1; apply Ff; eapply nth_error_In; exact Ni). assert (Lw : length w = get_nf (po_prob s0)) by (apply HWw; eapply nth_error_In; exact Nw).
  destruct (decompose_shape fi w z (me_dec a)) as (v1 & D1); [congruence|congruence|lia|exact DM|]. destruct (decompose_shape f w z (me_dec a)) as (v2 & D2); [congruence|congruence|lia|exact DM|].
  unfold moead_try. apply ends_bind, ends_getp. apply ends_bind. eapply ends_lift_ok; [exact Ei|]. apply ends_bind. eapply ends_lift_ok; [exact Ew|]. apply ends_bind. eapply ends_lift_ok; [exact D1|].
  apply ends_bind. eapply ends_lift_ok; [exact D2|]. apply ends_bind. eapply ends_lift_ok; [reflexivity|]. apply ends_bind. eapply ends_lift_ok; [reflexivity|].
  assert (DEC : In i R \/ (~ In i R /\ nth_error (po_f s0) i = Some fi)) by (destruct (in_dec Nat.eq_dec i R) as [K|K]; [now left|right; split; [exact K|]; rewrite <- Ni; symmetry; apply (OUT i K)]).
  destruct (dlt v2 v1) eqn:LT.
  - assert (NI : ~ In i R). { intros K. destruct (IN i K) as [_ KK]. rewrite KK in Ni. injection Ni as <-. rewrite D1 in D2. injection D2 as <-. rewrite dlt_irr in LT. discriminate. }
    destruct DEC as [K|[_ N0]]; [contradiction|]. apply ends_bind. apply ends_pset; [exact V|rewrite E2; exact Hi|rewrite E1; exact Lx|rewrite E1; exact Lf|]. intros c _ V'. apply ends_ret. split; [exact NI|].
    split; [exact V'|]. split; [exact FE|]. split.
    + split; [exact E1|]. split; [exact E2|]. cbn [snd setp po_x po_f]. rewrite !upd_length. split; [exact E3|]. split; [exact E4|]. split; [now apply NoDup_cons|]. split.
      * intros j [<-|Hj]; [split; apply nth_error_upd_eq; [rewrite K1|rewrite K2]; exact Hi|]. assert (i <> j) by (intros ->; contradiction). rewrite !nth_error_upd_neq by congruence. apply IN, Hj.
      * intros j Hj. rewrite !nth_error_upd_neq by (intros ->; apply Hj; now left). apply OUT. intros K. apply Hj. now right.
    + intros j [<-|Hj]; [|apply BT, Hj]. split; [exact Hi|]. exists w, fi. split; [exact Nw|]. split; [exact N0|]. exists v2, v1. auto.
  - apply ends_ret. split; [reflexivity|]. destruct DEC as [K|[_ N0]]; [now left|]. right. intros (w' & g & A & B & v & v' & A1 & A2 & A3). rewrite Nw in A. injection A as <-. rewrite N0 in B. injection B as <-.
    rewrite D2 in A1. injection A1 as <-. rewrite D1 in A2. injection A2 as <-. congruence.
Qed.

(** The place that position k of the shuffled list stands for *)
Definition picks (nb : list nat) (whole : bool) (k i : nat) : Prop := if whole then i = k else nth_error nb k = Some i.
Lemma tries_ok (nb : list nat) (whole : bool) (E : exn -> Prop) : (forall i, In i nb -> i < NP) -> forall ks, (forall k, In k ks -> k < (if whole then NP else length nb)) ->
  forall (R : list nat) (s : G * pop P), placed R s -> (me_div a = true -> length R < me_limit a \/ length R <= 1) ->
  ends_w W (moead_tries a ws z x f nb whole ks (length R)) s (fun _ s2 => exists R2 : list nat, placed R2 s2 /\ (forall i, In i R -> In i R2) /\ (me_div a = true -> length R2 <= Nat.max (me_limit a) 2) /\
    (forall i, In i R2 -> In i R \/ exists k, In k ks /\ picks nb whole k i) /\
    (me_div a = false -> forall k i, In k ks -> picks nb whole k i -> beaten (me_dec a) ws z s0 f i -> In i R2)) E.
Proof.
  intros HN. induction ks as [|k ks IH]; intros HK R s PL HL; cbn [moead_tries].
  - apply ends_ret. exists R. split; [exact PL|]. split; [auto|]. split; [intros D; specialize (HL D); lia|]. split; [auto|]. intros _ k i [].
  - assert (PK : exists i, i < NP /\ picks nb whole k i /\ (if whole then rret k else rlift (vget nb k)) = (rret i : AM (G := G) (P := P) nat)).
    { pose proof (HK k (or_introl eq_refl)) as H. destruct whole; [exists k; repeat split; exact H|]. destruct (vget_in_range nb k H) as (i & Ei & Ni). exists i. split; [apply HN; eapply nth_error_In; exact Ni|]. split; [exact Ni|]. now rewrite Ei. }
    destruct PK as (i & Hi & Pi & ->). apply ends_bind. apply ends_ret. apply ends_bind. eapply ends_weak; [apply (try_ok R s i E PL Hi)| |auto]. intros b s' Hb. cbv beta.
    assert (PU : forall j, picks nb whole k j -> j = i). { intros j Hj. unfold picks in *. destruct whole; congruence. }
    assert (ST : exists R1, placed R1 s' /\ length R1 = tick b (length R) /\ (forall j, In j R -> In j R1) /\ (forall j, In j R1 -> In j R \/ j = i) /\ (beaten (me_dec a) ws z s0 f i -> In i R1)).
    { destruct b.
      - destruct Hb as [NI PL']. exists (i :: R). split; [exact PL'|]. split; [reflexivity|]. split; [intros j Hj; now right|]. split; [intros j [<-|Hj]; auto|]. intros _. now left.
      - destruct Hb as [-> [K|K]]; exists R; (split; [exact PL|]; split; [reflexivity|]; split; [auto|]; split; [auto|]); [auto|contradiction]. }
    destruct ST as (R1 & PL1 & LR & SUB & SUP & BI). assert (TB : length R1 <= S (length R)) by (rewrite LR; destruct b; cbn; lia). rewrite <- LR.
    destruct (Nat.leb_spec (me_limit a) (length R1)) as [LE|LE]; destruct (me_div a) eqn:DV; cbn [andb].
    1:{ apply ends_ret. exists R1. split; [exact PL1|]. split; [exact SUB|]. split; [intros _; specialize (HL eq_refl); lia|]. split; [|discriminate].
        intros j Hj. destruct (SUP j Hj) as [K| ->]; [now left|]. right. exists k. split; [now left|exact Pi]. }
    all: (eapply ends_weak; [apply (IH (fun q Hq => HK q (or_intror Hq)) R1 s' PL1)| |auto]; [intros D; first [discriminate D|left; exact LE]|]).
    all: intros u s2 (R2 & A1 & A2 & A3 & A4 & A5); exists R2; (split; [exact A1|]); (split; [auto|]); (split; [exact A3|]); (split; [|]).
    1,3,5: intros j Hj; destruct (A4 j Hj) as [K|(q & Hq & Pq)]; [destruct (SUP j K) as [K'| ->]; [now left|right; exists k; split; [now left|exact Pi]]|right; exists q; split; [now right|exact Pq]].
    all: intros D q j [<-|Hq] Pq B; [rewrite (PU j Pq) in *; auto|now apply (A5 D q j)].
Qed.
Lemma insert_ok neigh nb n whole (g : G) (E : exn -> Prop) : n < NP -> nth_error neigh n = Some nb -> (forall i, In i nb -> i < NP) -> (whole = true -> me_div a = true) ->
  ends_w W (moead_insert shuf a ws neigh z x f n whole) (g, s0) (fun _ s' => exists R, placed R s' /\ (beaten (me_dec a) ws z s0 f n -> In n R) /\
    (me_div a = false -> (forall i, In i R -> i = n \/ In i nb) /\ forall i, i = n \/ In i nb -> beaten (me_dec a) ws z s0 f i -> In i R) /\ (me_div a = true -> length R <= Nat.max (me_limit a) 2)) E.
Proof.
  intros Hn Nn HN HD. unfold moead_insert. apply ends_bind, ends_getp. apply ends_bind. eapply ends_weak; [apply (try_ok [] (g, s0) n E (placed_start g) Hn)| |auto]. intros b s1 Hb. cbv beta.
  assert (ST : exists R1, placed R1 s1 /\ length R1 = tick b 0 /\ (forall j, In j R1 -> j = n) /\ (beaten (me_dec a) ws z s0 f n -> In n R1)).
  { destruct b.
    - destruct Hb as [_ PL]. exists [n]. split; [exact PL|]. split; [reflexivity|]. split; [intros j [<-|[]]; reflexivity|]. intros _. now left.
    - destruct Hb as [-> [[]|K]]. exists []. split; [apply placed_start|]. split; [reflexivity|]. split; [intros j []|contradiction]. }
  destruct ST as (R1 & PL1 & LR & SUP & BI). apply ends_bind. eapply ends_lift_ok; [apply vget_ok; exact Nn|]. apply ends_bind. cbn [snd]. fold NP.
  apply ends_eng with (Q1 := fun ks => Permutation (seq 0 (if whole then NP else length nb)) ks).
  { intros g'. unfold rdraw. pose proof (SC nat (seq 0 (if whole then NP else length nb)) g') as H. destruct (shuf nat _ g') as [ks g'']. exact H. }
  intros ks g1 PM. rewrite <- LR. eapply ends_weak; [apply (tries_ok nb whole E HN ks) with (R := R1)| |auto].
  - intros k Hk. apply (Permutation_in _ (Permutation_sym PM)), in_seq in Hk. lia.
  - exact PL1.
  - intros _. right. rewrite LR. destruct b; cbn; lia.
  - intros u s2 (R2 & A1 & A2 & A3 & A4 & A5). exists R2. split; [exact A1|]. split; [auto|]. split; [|exact A3]. intros D. assert (whole = false) as -> by (destruct whole; [rewrite HD in D by reflexivity; discriminate|reflexivity]). split.
    + intros i Hi. destruct (A4 i Hi) as [K|(k & _ & K)]; [left; auto|right; eapply nth_error_In; exact K].
    + intros i [-> |Hi] B; [auto|]. apply In_nth_error in Hi. destruct Hi as (k & Ek). apply (A5 D k i); [|exact Ek|exact B]. apply (Permutation_in _ PM), in_seq. assert (k < length nb) by (apply nth_error_Some; congruence). lia.
Qed.
End Insert.
