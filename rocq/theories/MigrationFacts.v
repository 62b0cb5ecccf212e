(** Facts on the migration step. *)
From Coq Require Import List Bool Arith ZArith Lia.
From Verif Require Import Dbl Outcome BaseFacts StdSort Compare Constrained Problem SpecProblem ProblemFacts2 ProblemFacts3 Rng SpecGeneric SpecGenetic RmFacts Population SpecPopulation PopulationFacts
  Policies SpecPolicies PoliciesFacts Migration SpecMigration.
Import ListNotations.

Lemma vget_inv {A} (l : list A) i a : vget l i = Ok a -> nth_error l i = Some a.
Proof. unfold vget. destruct (nth_error l i); [now intros [= ->]|discriminate]. Qed.
Lemma rbind_inv {S A B} (m : RM S A) (f : A -> RM S B) s o s' : rbind m f s = (o, s') ->
  (exists a s1, m s = (Ok a, s1) /\ f a s1 = (o, s')) \/ ((forall b, o <> Ok b) /\ exists o1, m s = (o1, s') /\ forall a, o1 <> Ok a).
Proof. unfold rbind. destruct (m s) as [[a|e| |] s1] eqn:E; intros H; [left; eauto|right..]; injection H as <- <-; (split; [congruence|]; eexists; split; [reflexivity|congruence]). Qed.

Lemma zip3_nth_error {A B C} (a : list A) (b : list B) (c : list C) k x y z : nth_error a k = Some x -> nth_error b k = Some y -> nth_error c k = Some z -> nth_error (zip3 a b c) k = Some (x, y, z).
Proof. revert b c k. induction a as [|x0 a IH]; intros [|y0 b] [|z0 c] [|k]; cbn; try discriminate; intros; [congruence|auto]. Qed.
Lemma map_ok_members g : aligned g -> group_to_map g = Ok (rev (map (fun t => (fst (fst t), (snd (fst t), snd t))) (members g))).
Proof.
  intros [LX LF]. unfold group_to_map. assert (Q : forall k, k <= length (g_id g) ->
    mfold (fun m j => bind (vget (g_id g) j) (fun i => bind (vget (g_x g) j) (fun x => bind (vget (g_f g) j) (fun f => Ok ((i, (x, f)) :: m))))) [] (seq 0 k) =
    Ok (rev (map (fun t => (fst (fst t), (snd (fst t), snd t))) (firstn k (members g))))).
  { induction k as [|k IH]; intros Hk; [reflexivity|]. rewrite seq_S, mfold_app, IH by lia. cbn [bind mfold Nat.add].
    destruct (nth_error (g_id g) k) as [i|] eqn:E1; [|apply nth_error_None in E1; lia]. destruct (nth_error (g_x g) k) as [x|] eqn:E2; [|apply nth_error_None in E2; lia].
    destruct (nth_error (g_f g) k) as [f|] eqn:E3; [|apply nth_error_None in E3; lia]. unfold vget. rewrite E1, E2, E3. cbn [bind].
    assert (N := zip3_nth_error _ _ _ _ _ _ _ E1 E2 E3). fold (members g) in N. replace (firstn (S k) (members g)) with (firstn k (members g) ++ [(i, x, f)]).
    - rewrite map_app, rev_app_distr. reflexivity.
    - clear -N. revert k N. induction (members g) as [|t l IH]; intros [|k] N; try discriminate; [injection N as ->; reflexivity|]. change (t :: (firstn k l ++ [(i, x, f)]) = t :: firstn (S k) l). f_equal. now apply IH. }
  rewrite Q by lia. rewrite firstn_all2; [reflexivity|]. rewrite members_length by (split; assumption). lia.
Qed.
Lemma imap_find_in m i xf : imap_find m i = Some xf -> In (i, xf) m.
Proof. induction m as [|[k y] m IH]; cbn; [discriminate|]. destruct (Z.eqb_spec k i) as [->|D]; [intros [= ->]; now left|]. intros H. right. auto. Qed.
Lemma imap_find_some m i xf : In (i, xf) m -> imap_find m i <> None.
Proof. induction m as [|[k y] m IH]; cbn; [contradiction|]. destruct (Z.eqb_spec k i) as [->|D]; [discriminate|]. intros [H|H]; [congruence|auto]. Qed.
Lemma found_member g m i x f : aligned g -> group_to_map g = Ok m -> imap_find m i = Some (x, f) -> In (i, x, f) (members g).
Proof.
  intros A H F. rewrite (map_ok_members g A) in H. injection H as <-. apply imap_find_in in F. rewrite <- in_rev in F. apply in_map_iff in F. destruct F as ([[j y] z] & F & I). cbn in F. injection F as -> -> ->. exact I.
Qed.
Lemma present_found g m i : aligned g -> group_to_map g = Ok m -> In i (g_id g) -> exists x f, imap_find m i = Some (x, f).
Proof.
  intros A H I. rewrite (map_ok_members g A) in H. injection H as <-. apply In_nth_error in I. destruct I as [k Hk]. destruct A as [LX LF]. assert (k < length (g_id g)) by (apply nth_error_Some; congruence).
  destruct (nth_error (g_x g) k) as [x|] eqn:E2; [|apply nth_error_None in E2; lia]. destruct (nth_error (g_f g) k) as [f|] eqn:E3; [|apply nth_error_None in E3; lia].
  assert (N := zip3_nth_error _ _ _ _ _ _ _ Hk E2 E3). apply nth_error_In in N. assert (Q : In (i, (x, f)) (rev (map (fun t => (fst (fst t), (snd (fst t), snd t))) (members g)))).
  { rewrite <- in_rev. apply in_map_iff. exists (i, x, f). split; [reflexivity|exact N]. }
  apply imap_find_some in Q. destruct (imap_find _ i) as [[y z]|]; [eauto|contradiction].
Qed.

Lemma in_log m ts dst p e : In e (log_of m ts dst p) <-> In (e_id e) (g_id (snd p)) /\ imap_find m (e_id e) = Some (e_x e, e_f e) /\ e_ts e = ts /\ e_src e = fst p /\ e_dst e = dst.
Proof.
  unfold log_of. rewrite in_flat_map. split.
  - intros (i & I & H). destruct (imap_find m i) as [[x f]|] eqn:F; [|contradiction]. destruct H as [<-|[]]. cbn. auto.
  - intros (I & F & <- & <- & <-). exists (e_id e). split; [exact I|]. rewrite F. left. now destruct e.
Qed.

Section M.
Context {G E : Type} (v : menv E) (udrp : group -> pdata -> group -> outcome group).
Implicit Types (s : st G E).
Definition with_inds (p : pop G) (g : group) : pop G := {| po_prob := po_prob p; po_fevals := po_fevals p; po_id := g_id g; po_x := g_x g; po_f := g_f g; po_cx := po_cx p; po_cf := po_cf p; po_rng := po_rng p |}.

Lemma outside_inv {A} (m : RM E A) s o s' : outside m s = (o, s') -> s_pop s' = s_pop s /\ s_log s' = s_log s /\ m (s_env s) = (o, s_env s').
Proof. unfold outside. destruct (m (s_env s)) as [o1 e]. intros [= <- <-]. auto. Qed.
Lemma together_fold l a : fold_left (fun a p => app_group a (snd p)) l a = app_group a (together l).
Proof.
  revert a. induction l as [|[k g] l IH]; intros a; cbn [fold_left]; [unfold app_group, together; cbn; rewrite !app_nil_r; now destruct a|]. rewrite IH. unfold app_group, together. cbn. now rewrite !app_assoc.
Qed.
Lemma mig_together l : fold_left (fun a (p : nat * group) => app_group a (snd p)) l (mkgrp [] [] []) = together l.
Proof. rewrite together_fold. reflexivity. Qed.

Lemma replace_shaped inds d mig out : r_policy_replace udrp inds d mig = Ok out -> shaped (d_nx d) (nf_of d) out /\ udrp inds d mig = Ok out /\ verify_replace_input inds d mig = Ok tt.
Proof.
  unfold r_policy_replace. destruct (verify_replace_input inds d mig) as [[]| | |]; cbn [bind]; try discriminate. destruct (udrp inds d mig) as [r| | |]; cbn [bind]; try discriminate.
  destruct (verify_output_spec d r) as [[V S]|[V S]]; rewrite V; cbn [bind]; [intros [= <-]; auto|discriminate].
Qed.

Lemma settle_spec idx split s o s' : settle v udrp idx split s = (o, s') ->
  (o = Ok split /\ exists new ts m, r_policy_replace udrp (inds_of (s_pop s)) (data_of (po_prob (s_pop s))) (together split) = Ok new /\ group_to_map new = Ok m /\
     s_pop s' = with_inds (s_pop s) new /\ s_log s' = s_log s ++ concat (map (log_of m ts idx) split)) \/
  ((forall l, o <> Ok l) /\ s_pop s' = s_pop s /\ s_log s' = s_log s).
Proof.
  unfold settle. rewrite mig_together. intros H. apply rbind_inv in H. destruct H as [(p & s1 & H1 & H)|(N & o1 & H1 & N1)]; [|unfold get_pop in H1; inversion H1; subst; exfalso; eapply N1; reflexivity].
  unfold get_pop in H1. injection H1 as <- <-. apply rbind_inv in H. destruct H as [(new & s1 & H1 & H)|(N & o1 & H1 & N1)]; unfold rlift in H1.
  2: { right. injection H1 as _ <-. auto. }
  injection H1 as H1 <-. apply replace_shaped in H1 as R. destruct R as (SH & _). assert (A : aligned new) by apply SH. left.
  unfold set_individuals, rbind, get_pop, set_pop, outside, rdraw, rlift, rret, append_log in H. cbn [s_pop s_env s_log] in H. destruct (v_now v (s_env s)) as [ts e]. rewrite (map_ok_members new A) in H. cbn [s_pop s_env s_log] in H.
  injection H as <- <-. split; [reflexivity|]. exists new, ts. eexists. split; [exact H1|]. split; [apply map_ok_members; exact A|]. split; reflexivity.
Qed.

(** What the step as a whole does. *)
Definition fetched (src : nat) (g : group) : Prop := exists h e, fst (fetch v h src e) = Ok g.
Lemma migrate_spec idx s o s' : migrate v udrp idx s = (o, s') ->
  ((forall l, o <> Ok l) /\ s_pop s' = s_pop s /\ s_log s' = s_log s) \/
  (o = Ok [] /\ s_pop s' = s_pop s /\ s_log s' = s_log s) \/
  (exists seen new ts m conns, o = Ok seen /\ r_policy_replace udrp (inds_of (s_pop s)) (data_of (po_prob (s_pop s))) (together seen) = Ok new /\ group_to_map new = Ok m /\
     s_pop s' = with_inds (s_pop s) new /\ s_log s' = s_log s ++ concat (map (log_of m ts idx) seen) /\
     fst (v_conn v idx (s_env s)) = Ok conns /\ forall src g, In (src, g) seen -> drawn v conns src /\ fetched src g).
Proof.
  unfold migrate. intros H. apply rbind_inv in H. destruct H as [(c & s1 & H1 & H)|(N & o1 & H1 & _)]; apply outside_inv in H1; destruct H1 as (P1 & L1 & C1); [|left; auto].
  destruct (Nat.eqb (length (fst c)) 0). { unfold rret in H. injection H as <- <-. right; left. auto. }
  apply rbind_inv in H. destruct H as [(t & s2 & H1 & H)|(N & o1 & H1 & _)]; apply outside_inv in H1; destruct H1 as (P2 & L2 & _); [|left; rewrite P2, L2; auto].
  apply rbind_inv in H. destruct H as [(h & s3 & H1 & H)|(N & o1 & H1 & _)]; apply outside_inv in H1; destruct H1 as (P3 & L3 & _); [|left; rewrite P3, L3, P2, L2; auto].
  assert (FIN : forall s4 seen, s_pop s4 = s_pop s -> s_log s4 = s_log s -> (forall src g, In (src, g) seen -> drawn v c src /\ fetched src g) -> settle v udrp idx seen s4 = (o, s') ->
    ((forall l, o <> Ok l) /\ s_pop s' = s_pop s /\ s_log s' = s_log s) \/ (o = Ok [] /\ s_pop s' = s_pop s /\ s_log s' = s_log s) \/
    (exists seen new ts m conns, o = Ok seen /\ r_policy_replace udrp (inds_of (s_pop s)) (data_of (po_prob (s_pop s))) (together seen) = Ok new /\ group_to_map new = Ok m /\
     s_pop s' = with_inds (s_pop s) new /\ s_log s' = s_log s ++ concat (map (log_of m ts idx) seen) /\
     fst (v_conn v idx (s_env s)) = Ok conns /\ forall src g, In (src, g) seen -> drawn v conns src /\ fetched src g)).
  { intros s4 seen PP LL FF HS. destruct (settle_spec _ _ _ _ _ HS) as [(-> & new & ts & m & R & GM & SP & SL)|(N & SP & SL)].
    - right; right. rewrite PP in *. rewrite LL in *. exists seen, new, ts, m, c. rewrite C1. do 5 (split; [auto|]). split; [reflexivity|exact FF].
    - left. rewrite SP, SL, PP, LL. auto. }
  rewrite P2 in P3. rewrite P1 in P3. rewrite L2 in L3. rewrite L1 in L3. destruct t.
  - unfold p2p in H. apply rbind_inv in H. destruct H as [(k & s4 & H1 & H)|(N & o1 & H1 & _)]; apply outside_inv in H1; destruct H1 as (P4 & L4 & _); [|left; rewrite P4, L4; auto].
    apply rbind_inv in H. destruct H as [(d & s5 & H1 & H)|(N & o1 & H1 & _)]; apply outside_inv in H1; destruct H1 as (P5 & L5 & D5); [|left; rewrite P5, L5, P4, L4; auto].
    apply rbind_inv in H. destruct H as [(wk & s6 & H1 & H)|(N & o1 & H1 & _)]; unfold rlift in H1; [|left; injection H1 as _ <-; rewrite P5, L5, P4, L4; auto].
    injection H1 as W1 <-. destruct (dlt d wk) eqn:DW. 2: { unfold rret in H. injection H as <- <-. right; left. rewrite P5, L5, P4, L4. auto. }
    apply rbind_inv in H. destruct H as [(src & s6 & H1 & H)|(N & o1 & H1 & _)]; unfold rlift in H1; [|left; injection H1 as _ <-; rewrite P5, L5, P4, L4; auto].
    injection H1 as H1 <-. apply rbind_inv in H. destruct H as [(g & s6 & H2 & H)|(N & o1 & H2 & _)]; apply outside_inv in H2; destruct H2 as (P6 & L6 & F6); [|left; rewrite P6, L6, P5, L5, P4, L4; auto].
    eapply FIN; [| | |exact H].
    + rewrite P6, P5, P4. exact P3.
    + rewrite L6, L5, L4. exact L3.
    + intros a b [[= <- <-]|[]]. split; [exists k, wk, d, (s_env s4); rewrite D5; repeat split; auto; apply vget_inv; assumption|]. exists h, (s_env s5). now rewrite F6.
  - unfold broadcast in H. apply rbind_inv in H.
    assert (LOOP : forall js acc (sa : st G E) oo (sb : st G E), (forall src g, In (src, g) acc -> drawn v c src /\ fetched src g) ->
      rfold (fun acc j => rbind (outside (v_die v)) (fun d => rbind (rlift (vget (snd c) j)) (fun wj => if dlt d wj then rbind (rlift (vget (fst c) j)) (fun src => rbind (outside (fetch v h src)) (fun g => rret (acc ++ [(src, g)]))) else rret acc))) acc js sa = (oo, sb) ->
      s_pop sb = s_pop sa /\ s_log sb = s_log sa /\ forall seen, oo = Ok seen -> forall src g, In (src, g) seen -> drawn v c src /\ fetched src g).
    { induction js as [|j js IHj]; intros acc sa oo sb FA HL; cbn [rfold] in HL.
      - unfold rret in HL. injection HL as <- <-. split; [reflexivity|]. split; [reflexivity|]. intros ? [= <-]. exact FA.
      - apply rbind_inv in HL. destruct HL as [(acc' & sc & H1 & HL)|(N & o1 & H1 & N1)].
        + assert (STEP : s_pop sc = s_pop sa /\ s_log sc = s_log sa /\ forall src g, In (src, g) acc' -> drawn v c src /\ fetched src g).
          { apply rbind_inv in H1. destruct H1 as [(d & sd & H2 & H1)|(N & o1 & H2 & N1)]; [|exfalso; eapply N; reflexivity]. apply outside_inv in H2. destruct H2 as (Q1 & Q2 & Q0).
            apply rbind_inv in H1. destruct H1 as [(wj & se & H2 & H1)|(N & o1 & H2 & N1)]; [|exfalso; eapply N; reflexivity]. unfold rlift in H2. injection H2 as W1 <-.
            destruct (dlt d wj) eqn:DW; [|unfold rret in H1; injection H1 as <- <-; rewrite Q1, Q2; auto].
            apply rbind_inv in H1. destruct H1 as [(src & se & H2 & H1)|(N & o1 & H2 & N1)]; [|exfalso; eapply N; reflexivity]. unfold rlift in H2. injection H2 as H2 <-.
            apply rbind_inv in H1. destruct H1 as [(g & se & H3 & H1)|(N & o1 & H3 & N1)]; [|exfalso; eapply N; reflexivity]. apply outside_inv in H3. destruct H3 as (Q3 & Q4 & Q5).
            unfold rret in H1. injection H1 as <- <-. rewrite Q3, Q4, Q1, Q2. split; [reflexivity|]. split; [reflexivity|]. intros a b I. apply in_app_or in I. destruct I as [I|[[= <- <-]|[]]]; [now apply FA|]. split.
            - exists j, wj, d, (s_env sa). rewrite Q0. repeat split; auto; apply vget_inv; assumption.
            - exists h, (s_env sd). now rewrite Q5. }
          destruct STEP as (T1 & T2 & T3). destruct (IHj _ _ _ _ T3 HL) as (U1 & U2 & U3). rewrite U1, U2, T1, T2. auto.
        + assert (STEP : s_pop sb = s_pop sa /\ s_log sb = s_log sa).
          { apply rbind_inv in H1. destruct H1 as [(d & sd & H2 & H1)|(_ & o2 & H2 & _)]; apply outside_inv in H2; destruct H2 as (Q1 & Q2 & _); [|auto].
            apply rbind_inv in H1. destruct H1 as [(wj & se & H2 & H1)|(_ & o2 & H2 & _)]; unfold rlift in H2; [|injection H2 as _ <-; auto]. injection H2 as _ <-.
            destruct (dlt d wj); [|unfold rret in H1; injection H1 as <- <-; rewrite Q1, Q2; auto].
            apply rbind_inv in H1. destruct H1 as [(src & se & H2 & H1)|(_ & o2 & H2 & _)]; unfold rlift in H2; [|injection H2 as _ <-; auto]. injection H2 as H2 <-.
            apply rbind_inv in H1. destruct H1 as [(g & se & H3 & H1)|(_ & o2 & H3 & _)]; apply outside_inv in H3; destruct H3 as (Q3 & Q4 & Q5); [|rewrite Q3, Q4, Q1, Q2; auto].
            unfold rret in H1. injection H1 as <- <-. rewrite Q3, Q4, Q1, Q2. auto. }
          destruct STEP as (T1 & T2). split; [exact T1|]. split; [exact T2|]. intros seen ->. exfalso. eapply N. reflexivity. }
    destruct H as [(seen & s4 & H1 & H)|(N & o1 & H1 & _)]; (destruct (LOOP _ [] _ _ _ (fun _ _ F => match F with end) H1) as (Q1 & Q2 & Q3)).
    + eapply FIN; [| | |exact H]; [rewrite Q1; exact P3|rewrite Q2; exact L3|exact (Q3 seen eq_refl)].
    + left. rewrite Q1, Q2. auto.
Qed.

(** C58 *)
Lemma log_real idx s seen s' : migrate v udrp idx s = (Ok seen, s') -> exists added, s_log s' = s_log s ++ added /\
  (forall e, In e added -> e_dst e = idx /\ In (e_id e, e_x e, e_f e) (members (inds_of (s_pop s'))) /\ exists g, In (e_src e, g) seen /\ In (e_id e) (g_id g)) /\
  (forall src g i, In (src, g) seen -> In i (g_id g) -> In i (po_id (s_pop s')) -> exists e, In e added /\ e_id e = i /\ e_src e = src).
Proof.
  intros H. destruct (migrate_spec _ _ _ _ H) as [(N & _)|[([= ->] & P & L)|(seen' & new & ts & m & conns & [= <-] & R & GM & P & L & _)]].
  - exfalso. eapply N. reflexivity.
  - exists []. rewrite app_nil_r. split; [exact L|]. split; [intros e []|intros src g i []].
  - apply replace_shaped in R. destruct R as (SH & _). assert (A : aligned new) by apply SH. eexists. split; [exact L|]. rewrite P. change (inds_of (with_inds (s_pop s) new)) with (mkgrp (g_id new) (g_x new) (g_f new)).
    replace (mkgrp (g_id new) (g_x new) (g_f new)) with new by now destruct new. split.
    + intros e I. apply in_concat in I. destruct I as (l & I & J). apply in_map_iff in I. destruct I as ([src g] & <- & I). apply in_log in J. destruct J as (J1 & J2 & J3 & J4 & J5). cbn in *. split; [exact J5|]. split; [eapply found_member; eauto|]. exists g. subst src. auto.
    + intros src g i I1 I2 I3. destruct (present_found new m i A GM I3) as (x & f & F). exists (mken ts i x f src idx). split; [|auto]. apply in_concat. eexists. split; [apply in_map; exact I1|]. apply in_log. cbn. auto.
Qed.
Lemma seen_fetched idx s seen s' : migrate v udrp idx s = (Ok seen, s') -> forall src g, In (src, g) seen -> exists conns, fst (v_conn v idx (s_env s)) = Ok conns /\ drawn v conns src /\ fetched src g.
Proof.
  intros H src g I. destruct (migrate_spec _ _ _ _ H) as [(N & _)|[([= ->] & P & L)|(seen' & new & ts & m & conns & [= <-] & R & GM & P & L & C & F)]].
  - exfalso. eapply N. reflexivity.
  - contradiction.
  - exists conns. split; [exact C|]. now apply F.
Qed.
Lemma atomic idx s o s' : migrate v udrp idx s = (o, s') -> same_but_individuals (s_pop s) (s_pop s') /\
  ((forall l, o <> Ok l) -> s_pop s' = s_pop s /\ s_log s' = s_log s) /\
  (forall seen, o = Ok seen -> seen <> [] -> r_policy_replace udrp (inds_of (s_pop s)) (data_of (po_prob (s_pop s))) (together seen) = Ok (inds_of (s_pop s'))).
Proof.
  intros H. destruct (migrate_spec _ _ _ _ H) as [(N & P & L)|[(-> & P & L)|(seen & new & ts & m & conns & -> & R & GM & P & L & _)]].
  - rewrite P. split; [repeat split|]. split; [auto|]. intros seen ->. exfalso. eapply N. reflexivity.
  - rewrite P. split; [repeat split|]. split; [intros N; exfalso; eapply N; reflexivity|]. intros seen [= <-] X. contradiction.
  - rewrite P. split; [repeat split|]. split; [intros N; exfalso; eapply N; reflexivity|]. intros seen' [= <-] _. rewrite R. now destruct new.
Qed.

(** shapes *)
Lemma obj_sizes p : prob_obj p -> (3 * Z.of_nat (p_nobj p) < 2 ^ 64 /\ 3 * Z.of_nat (p_nec p) < 2 ^ 64 /\ 3 * Z.of_nat (p_nic p) < 2 ^ 64)%Z /\ p_nix p <= get_nx p.
Proof.
  induction 1 as [u p H|p t p' O IH H].
  - destruct (construct_iff u) as (C & _ & B). assert (GU : good_udp u) by (apply C; eauto). pose proof (B p H) as (_ & El & Eu & Eo & Ee & Ei & En & _). destruct GU as ((_ & _ & _ & NX & _) & _ & G1 & G2 & G3 & _).
    unfold get_nx. rewrite El, Eo, Ee, Ei, En. auto.
  - destruct (set_c_tol_spec p t) as [(X & L & _)|(X & _)]; rewrite X in H; inversion H; subst. exact IH.
Qed.
Lemma data_ok p : prob_obj p -> (Z.of_nat (get_nx p) < 2 ^ 64)%Z -> size_args (data_of p) /\ consistent (data_of p) /\ nf_of (data_of p) = Z.of_nat (get_nf p) /\ nf_sum (data_of p) = Z.of_nat (get_nf p).
Proof.
  intros O H. destruct (obj_sizes p O) as ((S1 & S2 & S3) & S4). destruct (prob_obj_facts p O) as (F1 & F2 & F3 & F4). split; [|split; [|split]].
  - unfold size_args, data_of. cbn [d_nx d_nix d_nobj d_nec d_nic]. lia.
  - unfold consistent, data_of. cbn [d_nx d_nix d_nobj d_nec d_nic d_tol]. change ((2 ^ 64 - 1) / 3)%Z with 6148914691236517205%Z. rewrite F3. unfold get_nc. lia.
  - unfold nf_of, data_of, get_nf. cbn [d_nobj d_nec d_nic]. unfold wrap64. rewrite (Z.mod_small (Z.of_nat (p_nobj p) + Z.of_nat (p_nec p))) by lia. rewrite Z.mod_small by lia. lia.
  - unfold nf_sum, data_of, get_nf. cbn [d_nobj d_nec d_nic]. lia.
Qed.
Lemma shape_of (p : pop G) g : prob_obj (po_prob p) -> (Z.of_nat (get_nx (po_prob p)) < 2 ^ 64)%Z -> shaped (d_nx (data_of (po_prob p))) (nf_of (data_of (po_prob p))) g -> good_shape (with_inds p g).
Proof.
  intros O H ((A1 & A2) & B & C). destruct (data_ok _ O H) as (_ & _ & D & _). rewrite D in C. cbn [d_nx data_of] in B. unfold good_shape, with_inds. cbn. repeat split; auto; intros y Hy; [specialize (B y Hy)|specialize (C y Hy)]; lia.
Qed.
Lemma migrate_shape idx s o s' : prob_obj (po_prob (s_pop s)) -> (Z.of_nat (get_nx (po_prob (s_pop s))) < 2 ^ 64)%Z -> good_shape (s_pop s) -> migrate v udrp idx s = (o, s') -> good_shape (s_pop s').
Proof.
  intros O N S H. destruct (migrate_spec _ _ _ _ H) as [(_ & P & L)|[(-> & P & L)|(seen & new & ts & m & conns & -> & R & GM & P & L & _)]]; rewrite P; auto.
  apply shape_of; auto. now apply replace_shaped in R.
Qed.

Context (udsp : group -> pdata -> outcome group).
Lemma offer_inv idx s o s' : offer v udsp idx s = (o, s') -> s_pop s' = s_pop s /\ s_log s' = s_log s.
Proof.
  unfold offer. intros H. apply rbind_inv in H. destruct H as [(p & s1 & H1 & H)|(N & o1 & H1 & _)]; unfold get_pop in H1; [|injection H1 as _ <-; auto].
  injection H1 as <- <-. apply rbind_inv in H. destruct H as [(g & s1 & H1 & H)|(N & o1 & H1 & _)]; unfold rlift in H1; injection H1 as H1 <-; [|auto]. apply outside_inv in H. tauto.
Qed.
(** The whole task: what holds of the population when the evolution keeps it, holds in the
    end, whatever the migrants were. *)
Lemma task_inv (run : RM (st G E) unit) archi (I : pop G -> Prop) :
  (forall s o s', I (s_pop s) -> run s = (o, s') -> I (s_pop s')) ->
  (forall idx s o s', I (s_pop s) -> migrate v udrp idx s = (o, s') -> I (s_pop s')) ->
  forall n s o s', I (s_pop s) -> evolve_task v udrp udsp run archi n s = (o, s') -> I (s_pop s').
Proof.
  intros HR HM n s o s' IS H. unfold evolve_task in H.
  assert (TURN : forall s o s', I (s_pop s) -> turn v udrp udsp run archi s = (o, s') -> I (s_pop s')).
  { clear - HR HM. intros s o s' IS H. unfold turn in H.
    assert (M : forall o1 s1, (match archi with Some idx => rbind (migrate v udrp idx) (fun _ => rret tt) | None => rret tt end) s = (o1, s1) -> I (s_pop s1)).
    { intros o1 s1 H1. destruct archi as [idx|]; [|unfold rret in H1; injection H1 as _ <-; exact IS]. apply rbind_inv in H1. destruct H1 as [(l & s2 & H2 & H1)|(_ & o2 & H2 & _)]; [unfold rret in H1; injection H1 as _ <-|]; eapply HM; eauto. }
    apply rbind_inv in H. destruct H as [(u & s1 & H1 & H)|(N & o1 & H1 & _)]; [|eapply M; exact H1]. apply M in H1.
    apply rbind_inv in H. destruct H as [(u' & s2 & H2 & H)|(N & o1 & H2 & _)]; [|eapply HR; eauto]. apply (HR _ _ _ H1) in H2.
    destruct archi as [idx|]; [apply offer_inv in H; destruct H as [-> _]; exact H2|unfold rret in H; injection H as _ <-; exact H2]. }
  revert s o s' IS H. generalize (seq 0 n). intros l. induction l as [|k l IH]; intros s o s' IS H; cbn [rfold] in H; [unfold rret in H; injection H as _ <-; exact IS|].
  apply rbind_inv in H. destruct H as [(u & s1 & H1 & H)|(N & o1 & H1 & _)]; [destruct u; eapply IH; [|exact H]|]; eapply TURN; eauto.
Qed.
Lemma task_shape (run : RM (st G E) unit) archi p : prob_obj p -> (Z.of_nat (get_nx p) < 2 ^ 64)%Z ->
  (forall s o s', po_prob (s_pop s) = p -> good_shape (s_pop s) -> run s = (o, s') -> po_prob (s_pop s') = p /\ good_shape (s_pop s')) ->
  forall n s o s', po_prob (s_pop s) = p -> good_shape (s_pop s) -> evolve_task v udrp udsp run archi n s = (o, s') -> po_prob (s_pop s') = p /\ good_shape (s_pop s').
Proof.
  intros O N HR n s o s' P S H. apply (task_inv run archi (fun q => po_prob q = p /\ good_shape q)) with (n := n) (s := s) (o := o); auto.
  - intros s1 o1 s2 [P1 S1] H1. eapply HR; eauto.
  - intros idx s1 o1 s2 [P1 S1] H1. split; [|eapply migrate_shape; [| |exact S1|exact H1]; rewrite P1; auto]. destruct (atomic _ _ _ _ H1) as ((Q & _) & _). congruence.
Qed.

(** no undefined behaviour *)
Lemma outside_always {A} (m : RM E A) Q X : always m Q X -> always (G := st G E) (outside m) Q X.
Proof. intros H s. unfold outside. specialize (H (s_env s)). destruct (m (s_env s)). exact H. Qed.
Lemma fetch_always h i : sane v -> always (fetch v h i) (fun _ => True) (fun _ => True).
Proof. intros (_ & _ & _ & _ & _ & S1 & S2 & _). destruct h; [apply S1|apply S2]. Qed.
Definition no_ub {A} (o : outcome A) : Prop := match o with UB | NoFuel => False | _ => True end.
Lemma replace_no_ub inds d mig : no_ub (udrp inds d mig) -> no_ub (r_policy_replace udrp inds d mig).
Proof.
  intros H. unfold r_policy_replace. assert (V : no_ub (verify_replace_input inds d mig)).
  { unfold verify_replace_input, verify_dims, verify_members, throw_if. repeat (match goal with |- context [if ?b then _ else _] => destruct b end; cbn [bind]); exact I. }
  destruct (verify_replace_input inds d mig) as [[]| | |]; cbn [bind]; auto. destruct (udrp inds d mig) as [r| | |]; cbn [bind]; auto. destruct (verify_output_spec d r) as [[V' _]|[V' _]]; rewrite V'; cbn; exact I.
Qed.
Lemma settle_always idx split : (forall i d m, no_ub (udrp i d m)) -> always (settle (G := G) v udrp idx split) (fun _ => True) (fun _ => True).
Proof.
  intros U s. destruct (settle v udrp idx split s) as [o s'] eqn:H. unfold settle in H. rewrite mig_together in H. cbn [fst]. apply rbind_inv in H. destruct H as [(p & s1 & H1 & H)|(N & o1 & H1 & N1)]; [|unfold get_pop in H1; inversion H1; subst; exfalso; eapply N1; reflexivity].
  injection H1 as <- <-. unfold rbind at 1, rlift at 1 in H. pose proof (replace_no_ub _ (data_of (po_prob (s_pop s))) (together split) (U (inds_of (s_pop s)) (data_of (po_prob (s_pop s))) (together split))) as R.
  destruct (r_policy_replace udrp _ _ _) as [new|e| |] eqn:RR; try contradiction.
  - apply replace_shaped in RR. destruct RR as (SH & _). assert (A : aligned new) by apply SH.
    unfold set_individuals, rbind, get_pop, set_pop, outside, rdraw, rlift, rret, append_log in H. cbn [s_pop s_env s_log] in H. destruct (v_now v (s_env s)) as [ts e]. rewrite (map_ok_members new A) in H. injection H as <- <-. exact I.
  - injection H as <- <-. exact I.
Qed.
Lemma migrate_defined idx : sane v -> (forall i d m, no_ub (udrp i d m)) -> always (migrate (G := G) v udrp idx) (fun _ => True) (fun _ => True).
Proof.
  intros S U. pose proof S as (S1 & S2 & S3 & S4 & S5 & S6). unfold migrate. eapply always_bind; [apply outside_always, S1|]. intros [conns ws]. cbn [fst snd]. intros LEN.
  destruct (Nat.eqb_spec (length conns) 0) as [Z|Z]; [apply always_ret; exact I|]. eapply always_bind; [apply outside_always, S2|]. intros t _. eapply always_bind; [apply outside_always, S3|]. intros h _.
  assert (IX : forall k, k < length conns -> exists a b, nth_error conns k = Some a /\ nth_error ws k = Some b).
  { intros k Hk. destruct (nth_error conns k) as [a|] eqn:E1; [|apply nth_error_None in E1; lia]. destruct (nth_error ws k) as [b|] eqn:E2; [|apply nth_error_None in E2; lia]. eauto. }
  destruct t.
  - unfold p2p. eapply always_bind; [apply outside_always, S4; lia|]. intros k Hk. cbv beta in Hk. destruct (IX k Hk) as (a & b & E1 & E2). eapply always_bind; [apply outside_always, S5|]. intros d _.
    eapply always_bind; [eapply always_vget with (Q := fun _ => True); [exact E2|exact I]|]. intros wk _. destruct (dlt d wk); [|apply always_ret; exact I].
    eapply always_bind; [eapply always_vget with (Q := fun _ => True); [exact E1|exact I]|]. intros src _. eapply always_bind; [apply outside_always, fetch_always; exact S|]. intros g _. now apply settle_always.
  - unfold broadcast. eapply always_bind; [eapply always_fold with (I := fun _ => True); [|exact I]|intros; now apply settle_always].
    intros acc j Hj _. apply in_seq in Hj. destruct (IX j) as (a & b & E1 & E2); [lia|]. eapply always_bind; [apply outside_always, S5|]. intros d _.
    eapply always_bind; [eapply always_vget with (Q := fun _ => True); [exact E2|exact I]|]. intros wk _. destruct (dlt d wk); [|apply always_ret; exact I].
    eapply always_bind; [eapply always_vget with (Q := fun _ => True); [exact E1|exact I]|]. intros src _. eapply always_bind; [apply outside_always, fetch_always; exact S|]. intros g _. apply always_ret. exact I.
Qed.
End M.
