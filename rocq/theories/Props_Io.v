(** C75: streaming of containers and tables. *)
From Coq Require Import Ascii String List Bool Arith.
From Verif Require Import Outcome Io SpecIo IoFacts.
Import ListNotations.
Local Open Scope string_scope.

Theorem C75_vector_short : forall A (str : A -> string) l, length l <= 5 -> stream_range str l = Ok ("[" ++ joined ", " (map str l) ++ "]").
Proof. exact @stream_short. Qed.
Print Assumptions C75_vector_short.
Theorem C75_vector_long : forall A (str : A -> string) l, 5 < length l -> stream_range str l = Ok ("[" ++ joined ", " (map str (firstn 5 l)) ++ ", ... ]").
Proof. exact @stream_long. Qed.
Print Assumptions C75_vector_long.
Example C75_vector : stream_range stream_bool [true; false; true] = Ok "[true, false, true]" /\ stream_range stream_bool [] = Ok "[]" /\
  stream_range stream_bool [true; false; true; true; false] = Ok "[true, false, true, true, false]" /\
  stream_range stream_bool [true; false; true; true; false; true] = Ok "[true, false, true, true, false, ... ]".
Proof. exact (conj eq_refl (conj eq_refl (conj eq_refl eq_refl))). Qed.

Theorem C75_map_short : forall A B (sa : A -> string) (sb : B -> string) l, length l <= 5 ->
  stream_map sa sb l = Ok ("{" ++ joined ",  " (map (fun e => sa (fst e) ++ " : " ++ sb (snd e)) l) ++ "}").
Proof. exact @map_short. Qed.
Print Assumptions C75_map_short.
Theorem C75_map_long : forall A B (sa : A -> string) (sb : B -> string) l, 5 < length l ->
  stream_map sa sb l = Ok ("{" ++ joined ",  " (map (fun e => sa (fst e) ++ " : " ++ sb (snd e)) (firstn 5 l)) ++ ",  ...}").
Proof. exact @map_long. Qed.
Print Assumptions C75_map_long.
Example C75_map : stream_map (fun s => s) stream_bool [("a", true); ("b", false)] = Ok "{a : true,  b : false}".
Proof. exact eq_refl. Qed.

(** A row of the wrong number of columns is rejected and changes nothing. *)
Theorem C75_rows : forall t row,
  (snd (add_row t row) = Ok tt /\ length row = length (t_headers t)) \/ (add_row t row = (t, Throw InvalidArgument) /\ length row <> length (t_headers t)).
Proof. exact rejected. Qed.
Print Assumptions C75_rows.
(** Whatever rows were added: the headers, a rule and the accepted rows, each cell filled with
    spaces up to the width of the longest cell of its column and two more. *)
Theorem C75_table : forall h ind rows, let rs := fitting h rows in
  print_table (tables h ind rows) =
  Ok (ind ++ line h rs h ++ newline ++ ind ++ String.concat "" (map (fun k => repeat_char "-"%char (width h rs k + 2)) (seq 0 (length h))) ++ newline ++
      String.concat "" (map (fun r => ind ++ line h rs r ++ newline) rs)).
Proof. exact print_ok. Qed.
Print Assumptions C75_table.
(** All lines have the same length. *)
Theorem C75_aligned : forall h rs r, length r = length h -> r = h \/ In r rs ->
  String.length (line h rs r) = fold_right plus 0 (map (fun k => width h rs k + 2) (seq 0 (length h))).
Proof. exact line_len. Qed.
Print Assumptions C75_aligned.
Example C75_table_example : fitting ["#"; "Type"] [["0"; "thread"]; ["only one"]; ["10"; "fork"]] = [["0"; "thread"]; ["10"; "fork"]] /\
  line ["#"; "Type"] [["0"; "thread"]; ["10"; "fork"]] ["10"; "fork"] = "10  fork    " /\ line ["#"; "Type"] [["0"; "thread"]; ["10"; "fork"]] ["#"; "Type"] = "#   Type    ".
Proof. exact (conj eq_refl (conj eq_refl eq_refl)). Qed.
