From Coq Require Import List Bool Arith ZArith Lia.
From Verif Require Import Dbl DblFacts IntDbl Outcome BaseFacts StdSort Problem SpecProblem ProblemFacts Rng Generic SpecGeneric SpecGenetic
  Population SpecPopulation Algo SpecAlgo AlgoFacts AlgoFacts2 AlgSade SpecSade AlgSadeFacts AlgSadeFacts2 AlgExamples.
Import ListNotations.
Local Open Scope nat_scope.

Lemma ctor_pool a : sade_ctor a = Ok (mkkept [] [] []) -> match sa_pool a with Fixed _ => True | Among l => l <> [] /\ (Z.of_nat (length l) <= 2 ^ 64)%Z end -> pool_ok a.
Proof. intros CT H. apply sade_ctor_iff in CT. destruct CT as [CT _]. unfold pool_ok, good_variant. destruct (sa_pool a); [exact CT|]. destruct H. auto. Qed.
Lemma ctor_adptv a : sade_ctor a = Ok (mkkept [] [] []) -> sa_adptv a = 1 \/ sa_adptv a = 2.
Proof. intros CT. apply sade_ctor_iff in CT. apply CT. Qed.

Section R.
Context {G P : Type} (r : rng G) (RC : rng_contract r) (srt : sorter) (a : sade_params) (PK : pool_ok a).
Lemma evolve_ok_pre k (s : G * pop P) k' s' : sade_evolve r srt a k s = (Ok k', s') -> plain_single (po_prob (snd s)) /\ (k' = k \/ (0 < sa_gen a /\ 7 <= length (po_id (snd s)))).
Proof.
  intros E. assert (PS : plain_single (po_prob (snd s))).
  { destruct (Nat.eq_dec (get_nc (po_prob (snd s))) 0) as [E1|E1]; [|rewrite (sade_rejects r srt a k s) in E by (left; intros (? & ?); contradiction); discriminate].
    destruct (Nat.eq_dec (get_nf (po_prob (snd s))) 1) as [E2|E2]; [|rewrite (sade_rejects r srt a k s) in E by (left; intros (? & ? & ?); contradiction); discriminate].
    destruct (u_set_seed (p_udp (po_prob (snd s)))) eqn:E3; [rewrite (sade_rejects r srt a k s) in E by (left; intros (? & ? & ?); congruence); discriminate|]. repeat split; assumption. }
  split; [exact PS|]. destruct (Nat.eq_dec (sa_gen a) 0) as [E0|E0]; [rewrite (sade_zero r srt a k s PS E0) in E; left; congruence|].
  right. split; [lia|]. destruct (Nat.le_gt_cases 7 (length (po_id (snd s)))); [assumption|]. rewrite (sade_rejects r srt a k s) in E by (right; split; [lia|assumption]). discriminate.
Qed.
Lemma reached_V k : @reached G P r srt a k -> V_ok a (k_V k).
Proof.
  induction 1 as [|k s k' s' _ IH V FD E]; [unfold V_ok; destruct (sa_pool a); [exact I|intros v []]|].
  destruct (evolve_ok_pre _ _ _ _ E) as [PS [->|[HG H7]]]; [exact IH|].
  pose proof (sade_evolve_nan r RC srt a k s V PS FD PK HG H7 IH) as K. unfold ends_w in K. rewrite E in K. apply K.
Qed.
Lemma reached_ranges k : sa_adptv a = 1 -> @reached G P r srt a k -> Forall F_range (k_F k) /\ Forall CR_range (k_CR k).
Proof.
  intros EA R. pose proof (reached_V k R) as HV. revert HV. induction R as [|k s k' s' R IH V FD E]; [split; constructor|]. intros HV.
  pose proof (reached_V k R) as HV0. destruct (IH HV0) as [I1 I2].
  destruct (evolve_ok_pre _ _ _ _ E) as [PS [->|[HG H7]]]; [auto|].
  pose proof (sade_evolve_ranges r RC srt a k s V PS FD PK HG H7 EA I1 I2 HV0) as K. unfold ends_w in K. rewrite E in K. destruct K as (_ & _ & _ & _ & _ & _ & K1 & K2 & _). auto.
Qed.
Context (s : G * pop P).
Let p := po_prob (snd s).
Context (V : valid_pop (snd s)) (PS : plain_single p) (FD : fitness_defined p) (HG : 0 < sa_gen a) (H7 : 7 <= length (po_id (snd s))).
Lemma post_result Box FV CV k' s' : sade_post srt a s Box FV CV k' s' -> sade_result srt a Box s k' s' /\ match sa_pool a with Fixed _ => True | Among l => length (k_V k') = length (po_id (snd s)) /\ forall v, In v (k_V k') -> In v l end.
Proof. intros (A & B & C & D1 & D2 & D3 & _ & _ & D4). split; [exact (conj A (conj B (conj C (conj D1 D2))))|]. unfold V_ok in D4. destruct (sa_pool a); auto. Qed.
Lemma result_nan k : @reached G P r srt a k -> ends (sade_evolve r srt a k) s
  (fun k' s' => sade_result srt a (in_box_or_nan (p_lb p) (p_ub p)) s k' s' /\ match sa_pool a with Fixed _ => True | Among l => length (k_V k') = length (po_id (snd s)) /\ forall v, In v (k_V k') -> In v l end) (fails p).
Proof. intros R. eapply ends_weak; [apply (sade_evolve_nan r RC srt a k s V PS FD PK HG H7 (reached_V k R))| |auto]. intros k' s' H. eapply post_result; exact H. Qed.
Lemma result_box k : sa_adptv a = 1 -> @reached G P r srt a k -> (forall l, In l (p_lb p) -> bnd 2093 l) -> (forall u, In u (p_ub p) -> bnd 2093 u) -> (forall x, In x (po_x (snd s)) -> in_box (p_lb p) (p_ub p) x) ->
  ends (sade_evolve r srt a k) s (fun k' s' => sade_result srt a (in_box (p_lb p) (p_ub p)) s k' s') (fails p).
Proof.
  intros EA R B1 B2 B3. destruct (reached_ranges k EA R) as [R1 R2].
  eapply ends_weak; [apply (sade_evolve_box r RC srt a k s V PS FD PK HG H7 EA R1 R2 (reached_V k R) B1 B2 B3)| |auto]. intros k' s' H. eapply post_result; exact H.
Qed.
End R.

(** ** The statements for the two algorithms *)
Lemma sade_any {G P} (r : rng G) (RC : rng_contract r) srt a v k (s : G * pop P) : sa_pool a = Fixed v -> sade_ctor a = Ok (mkkept [] [] []) ->
  valid_pop (snd s) -> plain_single (po_prob (snd s)) -> fitness_defined (po_prob (snd s)) -> 0 < sa_gen a -> 7 <= length (po_id (snd s)) ->
  ends (sade_evolve r srt a k) s (sade_result srt a (in_box_or_nan (p_lb (po_prob (snd s))) (p_ub (po_prob (snd s)))) s) (fails (po_prob (snd s))).
Proof.
  intros EP CT V PS FD HG H7. assert (PK : pool_ok a) by (apply ctor_pool; [exact CT|rewrite EP; exact I]).
  assert (HV : V_ok a (k_V k)) by (unfold V_ok; rewrite EP; exact I).
  eapply ends_weak; [apply (sade_evolve_nan r RC srt a k s V PS FD PK HG H7 HV)| |auto]. intros k' s' H. apply (post_result srt a s _ _ _ k' s' H).
Qed.
Lemma sade_box {G P} (r : rng G) (RC : rng_contract r) srt a v k (s : G * pop P) : sa_pool a = Fixed v -> sade_ctor a = Ok (mkkept [] [] []) -> sa_adptv a = 1 ->
  @reached G P r srt a k -> valid_pop (snd s) -> plain_single (po_prob (snd s)) -> fitness_defined (po_prob (snd s)) -> 0 < sa_gen a -> 7 <= length (po_id (snd s)) ->
  (forall l, In l (p_lb (po_prob (snd s))) -> below_2p1019 l) -> (forall u, In u (p_ub (po_prob (snd s))) -> below_2p1019 u) ->
  (forall x, In x (po_x (snd s)) -> in_box (p_lb (po_prob (snd s))) (p_ub (po_prob (snd s))) x) ->
  ends (sade_evolve r srt a k) s (sade_result srt a (in_box (p_lb (po_prob (snd s))) (p_ub (po_prob (snd s)))) s) (fails (po_prob (snd s))).
Proof.
  intros EP CT EA R V PS FD HG H7. assert (PK : pool_ok a) by (apply ctor_pool; [exact CT|rewrite EP; exact I]). exact (result_box r RC srt a PK s V PS FD HG H7 k EA R).
Qed.
Lemma sade_ranges {G P} (r : rng G) (RC : rng_contract r) srt a v k : sa_pool a = Fixed v -> sade_ctor a = Ok (mkkept [] [] []) -> sa_adptv a = 1 ->
  @reached G P r srt a k -> Forall F_range (k_F k) /\ Forall CR_range (k_CR k).
Proof. intros EP CT EA. apply (reached_ranges r RC srt a); [apply ctor_pool; [exact CT|rewrite EP; exact I]|exact EA]. Qed.
Lemma de1220_any {G P} (r : rng G) (RC : rng_contract r) srt a l k (s : G * pop P) : sa_pool a = Among l -> l <> [] -> (Z.of_nat (length l) <= 2 ^ 64)%Z -> sade_ctor a = Ok (mkkept [] [] []) ->
  @reached G P r srt a k -> valid_pop (snd s) -> plain_single (po_prob (snd s)) -> fitness_defined (po_prob (snd s)) -> 0 < sa_gen a -> 7 <= length (po_id (snd s)) ->
  ends (sade_evolve r srt a k) s (fun k' s' => sade_result srt a (in_box_or_nan (p_lb (po_prob (snd s))) (p_ub (po_prob (snd s)))) s k' s' /\
    length (k_V k') = length (po_id (snd s)) /\ forall v, In v (k_V k') -> In v l) (fails (po_prob (snd s))).
Proof.
  intros EP NE LL CT R V PS FD HG H7. assert (PK : pool_ok a) by (apply ctor_pool; [exact CT|rewrite EP; auto]).
  pose proof (result_nan r RC srt a PK s V PS FD HG H7 k R) as K. rewrite EP in K. exact K.
Qed.
Lemma de1220_box {G P} (r : rng G) (RC : rng_contract r) srt a l k (s : G * pop P) : sa_pool a = Among l -> l <> [] -> (Z.of_nat (length l) <= 2 ^ 64)%Z -> sade_ctor a = Ok (mkkept [] [] []) -> sa_adptv a = 1 ->
  @reached G P r srt a k -> valid_pop (snd s) -> plain_single (po_prob (snd s)) -> fitness_defined (po_prob (snd s)) -> 0 < sa_gen a -> 7 <= length (po_id (snd s)) ->
  (forall l, In l (p_lb (po_prob (snd s))) -> below_2p1019 l) -> (forall u, In u (p_ub (po_prob (snd s))) -> below_2p1019 u) ->
  (forall x, In x (po_x (snd s)) -> in_box (p_lb (po_prob (snd s))) (p_ub (po_prob (snd s))) x) ->
  ends (sade_evolve r srt a k) s (sade_result srt a (in_box (p_lb (po_prob (snd s))) (p_ub (po_prob (snd s)))) s) (fails (po_prob (snd s))).
Proof.
  intros EP NE LL CT EA R V PS FD HG H7. assert (PK : pool_ok a) by (apply ctor_pool; [exact CT|rewrite EP; auto]). exact (result_box r RC srt a PK s V PS FD HG H7 k EA R).
Qed.
Lemma de1220_ranges {G P} (r : rng G) (RC : rng_contract r) srt a l k : sa_pool a = Among l -> l <> [] -> (Z.of_nat (length l) <= 2 ^ 64)%Z -> sade_ctor a = Ok (mkkept [] [] []) ->
  @reached G P r srt a k -> (forall v, In v (k_V k) -> In v l) /\ (sa_adptv a = 1 -> Forall F_range (k_F k) /\ Forall CR_range (k_CR k)).
Proof.
  intros EP NE LL CT R. assert (PK : pool_ok a) by (apply ctor_pool; [exact CT|rewrite EP; auto]). split.
  - pose proof (reached_V r RC srt a PK k R) as K. unfold V_ok in K. now rewrite EP in K.
  - intros EA. exact (reached_ranges r RC srt a PK k EA R).
Qed.
Lemma ctor_sade a v : sa_pool a = Fixed v -> (sade_ctor a = Ok (mkkept [] [] []) \/ sade_ctor a = Throw InvalidArgument) /\ (sade_ctor a = Ok (mkkept [] [] []) <-> 1 <= v <= 18 /\ (sa_adptv a = 1 \/ sa_adptv a = 2)).
Proof. intros EP. split; [apply sade_ctor_else|]. rewrite sade_ctor_iff, EP. reflexivity. Qed.
Lemma ctor_de1220 a l : sa_pool a = Among l -> (sade_ctor a = Ok (mkkept [] [] []) \/ sade_ctor a = Throw InvalidArgument) /\ (sade_ctor a = Ok (mkkept [] [] []) <-> (forall v, In v l -> 1 <= v <= 18) /\ (sa_adptv a = 1 \/ sa_adptv a = 2)).
Proof. intros EP. split; [apply sade_ctor_else|]. rewrite sade_ctor_iff, EP. reflexivity. Qed.
(** The allowed variants are never checked for being there. *)
Lemma de1220_empty : exists a, sade_ctor a = Ok (mkkept [] [] []) /\ sa_pool a = Among [] /\ 0 < sa_gen a /\
  forall G P (r : rng G) srt (s : G * pop P), rng_contract r -> valid_pop (snd s) -> plain_single (po_prob (snd s)) -> 7 <= length (po_id (snd s)) ->
    fst (sade_evolve r srt a (mkkept [] [] []) s) = UB.
Proof.
  exists (mksade 1 (Among []) 1 dzero dzero false). split; [reflexivity|]. split; [reflexivity|]. split; [cbn; lia|]. intros G P r srt s RC V PS H7. apply sade_empty; auto; cbn; lia.
Qed.

(** ** A population of seven *)
Definition alg_pop7 : pop (list Z) :=
  {| po_prob := alg_problem; po_fevals := 7; po_id := [1; 2; 3; 4; 5; 6; 7]%Z;
     po_x := [[Fin 1; Fin 9]; [Fin 2; Fin 2]; [Fin 3; Fin 5]; [Fin 8; Fin 4]; [Fin 6; Fin 6]; [Fin 0; Fin 9]; [Fin 7; Fin 1]];
     po_f := [[Fin 10]; [Fin 4]; [Fin 8]; [Fin 12]; [Fin 12]; [Fin 9]; [Fin 8]]; po_cx := [Fin 2; Fin 2]; po_cf := [Fin 4]; po_rng := [] |}.
Lemma alg_pop7_valid : valid_pop alg_pop7.
Proof.
  split; [exact alg_problem_obj|]. split.
  - split; [reflexivity|]. split; [reflexivity|]. split; [apply (proj1 (Forall_forall (fun x => length x = 2) (po_x alg_pop7))); repeat constructor|].
    split; [apply (proj1 (Forall_forall (fun x => length x = 1) (po_f alg_pop7))); repeat constructor|].
    intros i H. cbn [alg_pop7 po_id In] in H. lia.
  - right. split; reflexivity.
Qed.
Lemma alg_pop7_in_box : forall x, In x (po_x alg_pop7) -> in_box (p_lb alg_problem) (p_ub alg_problem) x.
Proof.
  apply (proj1 (Forall_forall (in_box (p_lb alg_problem) (p_ub alg_problem)) (po_x alg_pop7))).
  repeat (apply Forall_cons; [apply box2; split; vm_compute; reflexivity|]). apply Forall_nil.
Qed.
Definition sade_run (a : sade_params) := sade_evolve stream_rng (@isort) a (mkkept [] [] []) ([5; 3; 9; 1; 0; 2; 4; 8; 7; 6; 1; 3; 2; 5], alg_pop7)%Z.
