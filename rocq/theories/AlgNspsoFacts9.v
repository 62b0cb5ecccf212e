(** The niche count. *)
From Coq Require Import List Bool Arith ZArith Lia.
From Verif Require Import Dbl Outcome BaseFacts Problem AlgNspso.
Import ListNotations.

Lemma fold_pairs pw (x y : list dbl) : forall l s, (forall i, In i l -> i < length x /\ i < length y) ->
  mfold (fun s i => bind (vget x i) (fun a => bind (vget y i) (fun b => Ok (dadd s (pw (dsub a b) (d_of_Z 2)))))) s l = Ok (fold_left (fun s i => dadd s (pw (dsub (nth i x NaN) (nth i y NaN)) (d_of_Z 2))) l s).
Proof.
  induction l as [|i l IH]; intros s H; [reflexivity|]. cbn [mfold fold_left]. destruct (H i (or_introl eq_refl)) as [Hx Hy].
  unfold vget. rewrite (nth_error_nth' x NaN Hx), (nth_error_nth' y NaN Hy). cbn [bind]. apply IH. intros k K. apply H. now right.
Qed.
Lemma euclid_is pw x y : length x = length y ->
  euclid pw x y = Ok (dsqrt (fold_left (fun s i => dadd s (pw (dsub (nth i x NaN) (nth i y NaN)) (d_of_Z 2))) (seq 0 (length x)) dzero)).
Proof. intros L. unfold euclid. rewrite fold_pairs; [reflexivity|]. intros i I. apply in_seq in I. lia. Qed.
Lemma count_near pw delta x ys : (forall y, In y ys -> length x = length y) -> forall c,
  mfold (fun c y => bind (euclid pw x y) (fun d => Ok (if dlt d delta then c + 1 else c))) c ys = Ok (c + length (filter (fun y => dlt (dsqrt (fold_left (fun s i => dadd s (pw (dsub (nth i x NaN) (nth i y NaN)) (d_of_Z 2))) (seq 0 (length x)) dzero)) delta) ys)).
Proof.
  induction ys as [|y ys IH]; intros H c; [cbn; f_equal; lia|]. cbn [mfold filter]. rewrite (euclid_is pw x y (H y (or_introl eq_refl))). cbn [bind].
  rewrite IH by (intros z Z; apply H; now right). destruct (dlt _ delta); cbn [length]; f_equal; lia.
Qed.
Lemma mmap_is {A B} (f : A -> outcome B) (g : A -> B) l : (forall x, In x l -> f x = Ok (g x)) -> mmap f l = Ok (map g l).
Proof. induction l as [|x l IH]; intros H; [reflexivity|]. cbn [mmap map]. rewrite (H x (or_introl eq_refl)). cbn [bind]. rewrite IH by (intros z Z; apply H; now right). reflexivity. Qed.
Lemma niche_count_is pw delta xs n : (forall x, In x xs -> length x = n) ->
  niche_count pw delta xs = Ok (map (fun x => length (filter (fun y => dlt (dsqrt (fold_left (fun s i => dadd s (pw (dsub (nth i x NaN) (nth i y NaN)) (d_of_Z 2))) (seq 0 n) dzero)) delta) xs)) xs).
Proof.
  intros H. unfold niche_count. apply mmap_is. intros x X. rewrite (count_near pw delta x xs) by (intros y Y; rewrite (H x X), (H y Y); reflexivity). rewrite (H x X). reflexivity.
Qed.
Lemma niche_example : niche_count (fun a _ => dmul a a) (d_of_Z 2) [[dzero]; [done]; [d_of_Z 9]] = Ok [2; 2; 1].
Proof. vm_compute. reflexivity. Qed.
