(** Streaming of containers, include/pagmo/io.hpp, and ascii tables, src/io.cpp. Output is a
    string; [str] is what streaming an element writes. Iterators are positions: reading or
    moving past the end is undefined. *)
From Coq Require Import Ascii String List Bool Arith.
From Verif Require Import Outcome.
Import ListNotations.
Local Open Scope string_scope.

(** max_stream_output_length, io.hpp:78-81 *)
Definition max_stream : nat := 5.
(** stream_impl for bool, io.hpp:67-74 *)
Definition stream_bool (b : bool) : string := if b then "true" else "false".
(** The loop of stream_range, io.hpp:95-122; [k] is max_stream minus the counter *)
Fixpoint range_loop {A} (str : A -> string) (l : list A) (k i : nat) : outcome string :=
  match k with
  | 0 => Ok "... "
  | S k' => bind (vget l i) (fun x => if Nat.eqb (S i) (length l) then Ok (str x) else bind (range_loop str l k' (S i)) (fun t => Ok (str x ++ ", " ++ t)))
  end.
(** stream_range, io.hpp:85-125, and stream_impl for std::vector, :128-131 *)
Definition stream_range {A} (str : A -> string) (l : list A) : outcome string :=
  if Nat.eqb 0 (length l) then Ok "[]" else bind (range_loop str l max_stream 0) (fun t => Ok ("[" ++ t ++ "]")).
(** stream_impl for std::pair, io.hpp:134-137 *)
Definition stream_pair {A B} (sa : A -> string) (sb : B -> string) (p : A * B) : string := "(" ++ sa (fst p) ++ "," ++ sb (snd p) ++ ")".
(** stream_impl for std::map, io.hpp:140-156; a map is the list of its entries in key order *)
Fixpoint map_loop {A B} (sa : A -> string) (sb : B -> string) (l : list (A * B)) (k i : nat) : outcome string :=
  if Nat.eqb i (length l) then Ok "" else
  match k with
  | 0 => Ok "..."
  | S k' => bind (vget l i) (fun e => bind (map_loop sa sb l k' (S i)) (fun t => Ok (sa (fst e) ++ " : " ++ sb (snd e) ++ (if Nat.eqb (S i) (length l) then "" else ",  ") ++ t)))
  end.
Definition stream_map {A B} (sa : A -> string) (sb : B -> string) (l : list (A * B)) : outcome string :=
  bind (map_loop sa sb l max_stream 0) (fun t => Ok ("{" ++ t ++ "}")).

(** struct table, io.hpp:176-204 *)
Record table := mktable { t_indent : string; t_headers : list string; t_sizes : list nat; t_rows : list (list string) }.
(** The constructor, io.cpp:46-51 *)
Definition new_table (headers : list string) (indent : string) : table := mktable indent headers (map String.length headers) [].
(** add_row, io.hpp:186-198; the arguments are already converted to strings *)
Definition add_row (t : table) (row : list string) : table * outcome unit :=
  if Nat.eqb (length row) (length (t_headers t)) then
    (mktable (t_indent t) (t_headers t) (map (fun p => Nat.max (String.length (fst p)) (snd p)) (combine row (t_sizes t))) (t_rows t ++ [row])%list, Ok tt)
  else (t, Throw InvalidArgument).
(** std::string(n, c) *)
Fixpoint repeat_char (c : Ascii.ascii) (n : nat) : string := match n with 0 => EmptyString | S n' => String c (repeat_char c n') end.
(** One padded cell, io.cpp:58-60. size - str.size() + 2 wraps around if the cell is too
    long: the string would have about 2^64 characters; taken as undefined. std::transform
    reads one size for each cell of the row. *)
Definition pad_cell (str : string) (size : nat) : outcome string :=
  if Nat.ltb size (String.length str) then UB else Ok (str ++ repeat_char " "%char (size - String.length str + 2)).
Fixpoint print_row (row : list string) (sizes : list nat) : outcome string :=
  match row, sizes with
  | [], _ => Ok ""
  | _ :: _, [] => UB
  | c :: row', n :: sizes' => bind (pad_cell c n) (fun a => bind (print_row row' sizes') (fun b => Ok (a ++ b)))
  end.
Definition newline : string := String (Ascii.ascii_of_nat 10) EmptyString.
(** operator<<, io.cpp:53-75 *)
Definition print_table (t : table) : outcome string :=
  bind (print_row (t_headers t) (t_sizes t)) (fun h =>
  bind (mmap (fun row => bind (print_row row (t_sizes t)) (fun s => Ok (t_indent t ++ s ++ newline))) (t_rows t)) (fun rs =>
  Ok (t_indent t ++ h ++ newline ++ t_indent t ++ String.concat "" (map (fun n => repeat_char "-"%char (n + 2)) (t_sizes t)) ++ newline ++ String.concat "" rs))).
