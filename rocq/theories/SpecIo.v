(** Vocabulary for streaming. *)
From Coq Require Import Ascii String List Bool Arith.
From Verif Require Import Outcome Io.
Import ListNotations.
Local Open Scope string_scope.

(** The strings with a separator between neighbours *)
Definition joined (sep : string) (l : list string) : string :=
  match l with [] => "" | s :: l' => s ++ fold_right (fun a t => sep ++ a ++ t) "" l' end.
(** A table as user code can have it: made by the constructor and any rows. *)
Definition tables (headers : list string) (indent : string) (rows : list (list string)) : table :=
  fold_left (fun t r => fst (add_row t r)) rows (new_table headers indent).
(** The rows that fit *)
Definition fitting (headers : list string) (rows : list (list string)) : list (list string) :=
  filter (fun r => Nat.eqb (length r) (length headers)) rows.
(** The width of column k: that of its longest cell. *)
Definition width (headers : list string) (rows : list (list string)) (k : nat) : nat :=
  fold_right Nat.max 0 (map (fun r => String.length (nth k r "")) (headers :: rows)).
(** A cell filled with spaces up to a width *)
Definition filled (w : nat) (s : string) : string := s ++ repeat_char " "%char (w - String.length s).
(** The line of a row: column k takes width k and two spaces. *)
Definition line (headers : list string) (rows : list (list string)) (row : list string) : string :=
  String.concat "" (map (fun k => filled (width headers rows k + 2) (nth k row "")) (seq 0 (length row))).
