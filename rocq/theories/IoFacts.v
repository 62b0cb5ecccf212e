From Coq Require Import Ascii String List Bool Arith Lia.
From Verif Require Import Outcome BaseFacts Io SpecIo.
Import ListNotations.
Local Open Scope string_scope.

Lemma app_assoc_s a : forall b c : string, (a ++ b) ++ c = a ++ b ++ c.
Proof. induction a as [|x a IH]; intros b c; [reflexivity|]. cbn. now rewrite IH. Qed.
Lemma app_nil_s a : a ++ "" = a.
Proof. induction a as [|x a IH]; [reflexivity|]. cbn. now rewrite IH. Qed.
Lemma len_app_s a b : String.length (a ++ b) = String.length a + String.length b.
Proof. induction a as [|x a IH]; [reflexivity|]. cbn. now rewrite IH. Qed.
Lemma joined_cons sep a l : l <> [] -> joined sep (a :: l) = a ++ sep ++ joined sep l.
Proof. destruct l as [|b l]; [congruence|]. intros _. reflexivity. Qed.

Section R.
Context {A : Type} (str : A -> string) (l : list A).
Lemma range_loop_spec k : forall i, i < length l -> k <> 0 ->
  range_loop str l k i = Ok (joined ", " (map str (firstn k (skipn i l))) ++ (if Nat.leb (length l - i) k then "" else ", ... ")).
Proof.
  induction k as [|k IH]; intros i Hi Hk; [congruence|]. cbn [range_loop]. destruct (nth_error l i) as [x|] eqn:N; [|apply nth_error_None in N; lia]. unfold vget at 1. rewrite N. cbn [bind].
  assert (SK : skipn i l = x :: skipn (S i) l).
  { clear -N. revert l N. induction i as [|i IH]; intros [|y l] N; try discriminate; cbn in *; [congruence|]. rewrite (IH l N). reflexivity. }
  rewrite SK. cbn [firstn map]. destruct (Nat.eqb_spec (S i) (length l)) as [E|E].
  - assert (SN : skipn (S i) l = []) by (apply skipn_all2; lia). rewrite SN, firstn_nil. destruct (Nat.leb_spec (length l - i) (S k)); [|lia]. cbn. now rewrite !app_nil_s.
  - destruct k as [|k].
    + cbn [range_loop bind firstn map]. destruct (Nat.leb_spec (length l - i) 1); [lia|]. cbn [joined fold_right]. now rewrite app_nil_s.
    + rewrite IH by lia. cbn [bind]. rewrite joined_cons.
      * assert (EB : Nat.leb (length l - S i) (S k) = Nat.leb (length l - i) (S (S k))) by (destruct (Nat.leb_spec (length l - S i) (S k)), (Nat.leb_spec (length l - i) (S (S k))); lia || reflexivity). rewrite EB. now rewrite !app_assoc_s.
      * assert (LN : length (firstn (S k) (skipn (S i) l)) <> 0) by (rewrite firstn_length, skipn_length; lia). destruct (firstn (S k) (skipn (S i) l)); [exfalso; apply LN; reflexivity|discriminate].
Qed.
Lemma stream_short : length l <= 5 -> stream_range str l = Ok ("[" ++ joined ", " (map str l) ++ "]").
Proof.
  intros H. unfold stream_range. destruct (Nat.eqb_spec 0 (length l)) as [E|E]; [destruct l; [reflexivity|discriminate]|]. rewrite range_loop_spec by (unfold max_stream; lia). unfold max_stream. cbn [bind skipn]. rewrite firstn_all2 by lia.
  destruct (Nat.leb_spec (length l - 0) 5); [|lia]. now rewrite app_nil_s.
Qed.
Lemma stream_long : 5 < length l -> stream_range str l = Ok ("[" ++ joined ", " (map str (firstn 5 l)) ++ ", ... ]").
Proof.
  intros H. unfold stream_range. destruct (Nat.eqb_spec 0 (length l)) as [E|E]; [lia|]. rewrite range_loop_spec by (unfold max_stream; lia). unfold max_stream. cbn [bind skipn].
  destruct (Nat.leb_spec (length l - 0) 5); [lia|]. now rewrite app_assoc_s.
Qed.
End R.
Section M.
Context {A B : Type} (sa : A -> string) (sb : B -> string) (l : list (A * B)).
Definition entry (e : A * B) : string := sa (fst e) ++ " : " ++ sb (snd e).
Lemma map_loop_spec k : forall i, i < length l -> k <> 0 ->
  map_loop sa sb l k i = Ok (joined ",  " (map entry (firstn k (skipn i l))) ++ (if Nat.leb (length l - i) k then "" else ",  ...")).
Proof.
  induction k as [|k IH]; intros i Hi Hk; [congruence|]. cbn [map_loop]. destruct (Nat.eqb_spec i (length l)); [lia|]. destruct (nth_error l i) as [x|] eqn:N; [|apply nth_error_None in N; lia]. unfold vget at 1. rewrite N. cbn [bind].
  assert (SK : skipn i l = x :: skipn (S i) l).
  { clear -N. revert l N. induction i as [|i IH]; intros [|y l] N; try discriminate; cbn in *; [congruence|]. rewrite (IH l N). reflexivity. }
  rewrite SK. cbn [firstn map]. destruct (Nat.eqb_spec (S i) (length l)) as [E|E].
  - assert (SN : skipn (S i) l = []) by (apply skipn_all2; lia). rewrite SN, firstn_nil. destruct (Nat.leb_spec (length l - i) (S k)); [|lia].
    assert (ML : map_loop sa sb l k (S i) = Ok "") by (rewrite E; destruct k; cbn [map_loop]; rewrite Nat.eqb_refl; reflexivity). rewrite ML. cbn [bind map joined fold_right]. unfold entry. now rewrite !app_assoc_s, !app_nil_s.
  - destruct k as [|k].
    + cbn [map_loop]. destruct (Nat.eqb_spec (S i) (length l)); [lia|]. cbn [bind firstn map]. destruct (Nat.leb_spec (length l - i) 1); [lia|]. cbn [joined fold_right]. unfold entry. now rewrite app_nil_s, !app_assoc_s.
    + rewrite IH by lia. cbn [bind]. rewrite joined_cons.
      * assert (EB : Nat.leb (length l - S i) (S k) = Nat.leb (length l - i) (S (S k))) by (destruct (Nat.leb_spec (length l - S i) (S k)), (Nat.leb_spec (length l - i) (S (S k))); lia || reflexivity). rewrite EB. set (J := joined _ _). clearbody J. unfold entry. cbn [append]. rewrite !app_assoc_s. reflexivity.
      * assert (LN : length (firstn (S k) (skipn (S i) l)) <> 0) by (rewrite firstn_length, skipn_length; lia). destruct (firstn (S k) (skipn (S i) l)); [exfalso; apply LN; reflexivity|discriminate].
Qed.
Lemma map_short : length l <= 5 -> stream_map sa sb l = Ok ("{" ++ joined ",  " (map entry l) ++ "}").
Proof.
  intros H. unfold stream_map. destruct (Nat.eqb_spec (length l) 0) as [E|E]; [destruct l; [reflexivity|discriminate]|]. rewrite map_loop_spec by (unfold max_stream; lia). unfold max_stream. cbn [bind skipn]. rewrite firstn_all2 by lia.
  destruct (Nat.leb_spec (length l - 0) 5); [|lia]. now rewrite app_nil_s.
Qed.
Lemma map_long : 5 < length l -> stream_map sa sb l = Ok ("{" ++ joined ",  " (map entry (firstn 5 l)) ++ ",  ...}").
Proof.
  intros H. unfold stream_map. rewrite map_loop_spec by (unfold max_stream; lia). unfold max_stream. cbn [bind skipn]. destruct (Nat.leb_spec (length l - 0) 5); [lia|]. now rewrite app_assoc_s.
Qed.
End M.

(** Tables *)
Lemma map_combine_max (row : list string) : forall sizes, length row = length sizes ->
  forall k, nth k (map (fun p => Nat.max (String.length (fst p)) (snd p)) (combine row sizes)) 0 = Nat.max (String.length (nth k row "")) (nth k sizes 0).
Proof. induction row as [|c row IH]; intros [|n sizes] L [|k]; try discriminate; try reflexivity. cbn. apply IH. cbn in L. lia. Qed.
Lemma widths_app h rows r k : width h (rows ++ [r]) k = Nat.max (String.length (nth k r "")) (width h rows k).
Proof.
  unfold width. cbn [map fold_right]. rewrite map_app, fold_right_app. cbn [map fold_right]. assert (H : forall l a, fold_right Nat.max a l = Nat.max a (fold_right Nat.max 0 l)) by (induction l as [|x l IH]; intros a; cbn; [lia|rewrite IH; lia]). rewrite H. lia.
Qed.
Lemma table_inv h ind rows : let t := tables h ind rows in t_indent t = ind /\ t_headers t = h /\ t_rows t = fitting h rows /\ length (t_sizes t) = length h /\ forall k, nth k (t_sizes t) 0 = width h (fitting h rows) k.
Proof.
  cbv zeta. unfold tables. induction rows as [|r rows IH] using rev_ind.
  - cbn [fold_left new_table t_indent t_headers t_rows t_sizes fitting filter]. rewrite map_length. split; [reflexivity|]. split; [reflexivity|]. split; [reflexivity|]. split; [reflexivity|].
    intros k. unfold width. cbn [map fold_right]. rewrite Nat.max_0_r. change 0 with (String.length "") at 1. apply map_nth.
  - rewrite fold_left_app. cbn [fold_left]. destruct IH as (E1 & E2 & E3 & E4 & E5). set (t := fold_left _ rows _) in *. clearbody t. unfold add_row, fitting in *. rewrite filter_app. cbn [filter]. rewrite E2.
    destruct (Nat.eqb_spec (length r) (length h)) as [L|L]; cbn [fst t_indent t_headers t_rows t_sizes]; [|rewrite app_nil_r; auto].
    split; [exact E1|]. split; [reflexivity|]. split; [now rewrite E3|]. split; [rewrite map_length, combine_length; lia|]. intros k. rewrite map_combine_max by lia. rewrite E5, widths_app. reflexivity.
Qed.
Lemma width_ge h rows row k : row = h \/ In row rows -> String.length (nth k row "") <= width h rows k.
Proof.
  intros H. unfold width. assert (I : In (String.length (nth k row "")) (map (fun r => String.length (nth k r "")) (h :: rows))) by (apply (in_map (fun r => String.length (nth k r ""))); destruct H as [->|H]; [now left|now right]).
  revert I. generalize (String.length (nth k row "")). intros n. generalize (map (fun r => String.length (nth k r "")) (h :: rows)). induction l as [|x l IH]; [intros []|]. intros [->|I]; cbn; [lia|]. specialize (IH I). lia.
Qed.
Lemma concat_cons (s : string) l : String.concat "" (s :: l) = s ++ String.concat "" l.
Proof. destruct l; cbn; [now rewrite app_nil_s|reflexivity]. Qed.
Lemma print_row_spec (row : list string) : forall sizes, length row <= length sizes -> (forall k, k < length row -> String.length (nth k row "") <= nth k sizes 0) ->
  print_row row sizes = Ok (String.concat "" (map (fun k => filled (nth k sizes 0 + 2) (nth k row "")) (seq 0 (length row)))).
Proof.
  induction row as [|c row IH]; intros [|n sizes] L H; try reflexivity; cbn in L; [lia|]. cbn [print_row]. unfold pad_cell. pose proof (H 0 ltac:(cbn; lia)) as H0. cbn in H0. destruct (Nat.ltb_spec n (String.length c)); [lia|]. cbn [bind].
  rewrite (IH sizes); [|lia|intros k Hk; exact (H (S k) ltac:(cbn; lia))]. cbn [bind length seq map]. rewrite concat_cons. cbn [nth]. f_equal. f_equal; [unfold filled; f_equal; f_equal; lia|]. f_equal. rewrite <- seq_shift, map_map. reflexivity.
Qed.
Lemma concat_map_seq {B} (f : nat -> B) (l : list nat) : map f l = map (fun k => f (nth k l 0)) (seq 0 (length l)).
Proof. induction l as [|a l IH]; [reflexivity|]. cbn [map length seq]. f_equal. rewrite <- seq_shift, map_map. rewrite IH. reflexivity. Qed.
Lemma mmap_pure_in {A B} (f : A -> outcome B) (g : A -> B) l : (forall a, In a l -> f a = Ok (g a)) -> mmap f l = Ok (map g l).
Proof. induction l as [|a l IH]; intros H; [reflexivity|]. cbn [mmap map]. rewrite H by now left. cbn [bind]. rewrite IH by (intros; apply H; now right). reflexivity. Qed.
Lemma print_ok h ind rows : let rs := fitting h rows in
  print_table (tables h ind rows) = Ok (ind ++ line h rs h ++ newline ++ ind ++ String.concat "" (map (fun k => repeat_char "-"%char (width h rs k + 2)) (seq 0 (length h))) ++ newline ++ String.concat "" (map (fun r => ind ++ line h rs r ++ newline) rs)).
Proof.
  cbv zeta. destruct (table_inv h ind rows) as (E1 & E2 & E3 & E4 & E5). set (t := tables h ind rows) in *. clearbody t. set (rs := fitting h rows) in *.
  assert (FL : forall r, In r rs -> length r = length h) by (intros r H; apply filter_In in H; destruct H as [_ H]; now apply Nat.eqb_eq in H).
  assert (PR : forall r, length r = length h -> (r = h \/ In r rs) -> print_row r (t_sizes t) = Ok (line h rs r)).
  { intros r L I. rewrite print_row_spec; [|lia|intros k Hk; rewrite E5; now apply width_ge]. unfold line. f_equal. f_equal. apply map_ext. intros k. now rewrite E5. }
  unfold print_table. rewrite E2, (PR h eq_refl (or_introl eq_refl)). cbn [bind]. rewrite E3, E1. rewrite (mmap_pure_in _ (fun r => ind ++ line h rs r ++ newline)); [|intros r Hr; rewrite (PR r (FL r Hr) (or_intror Hr)); reflexivity]. cbn [bind].
  rewrite (concat_map_seq (fun n => repeat_char "-"%char (n + 2))), E4. rewrite (map_ext (fun k => repeat_char "-"%char (nth k (t_sizes t) 0 + 2)) (fun k => repeat_char "-"%char (width h rs k + 2))) by (intros k; now rewrite E5). reflexivity.
Qed.
Lemma repeat_len c n : String.length (repeat_char c n) = n.
Proof. induction n; cbn; auto. Qed.
(** Columns are aligned: what comes before column k has the same length in every line. *)
Lemma line_len h rs r : length r = length h -> r = h \/ In r rs -> String.length (line h rs r) = fold_right plus 0 (map (fun k => width h rs k + 2) (seq 0 (length h))).
Proof.
  intros L I. unfold line. rewrite L. assert (K : forall l, String.length (String.concat "" (map (fun k => filled (width h rs k + 2) (nth k r "")) l)) = fold_right plus 0 (map (fun k => width h rs k + 2) l)).
  { induction l as [|k l IH]; [reflexivity|]. cbn [map fold_right]. rewrite concat_cons, len_app_s, IH. f_equal. unfold filled. rewrite len_app_s, repeat_len. pose proof (width_ge h rs r k I). lia. }
  apply K.
Qed.
Lemma rejected t row : (snd (add_row t row) = Ok tt /\ length row = length (t_headers t)) \/ (add_row t row = (t, Throw InvalidArgument) /\ length row <> length (t_headers t)).
Proof. unfold add_row. destruct (Nat.eqb_spec (length row) (length (t_headers t))); auto. Qed.
