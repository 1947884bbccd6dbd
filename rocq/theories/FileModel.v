(** Tables initialized from files and strings: the texts of the values. src/Algorithm.cpp 765-802 (gatherInitListFromFile), 806-824 (readInitList). *)
From Coq Require Import String Ascii List Bool Arith NArith ZArith.
From Verif Require Import LiteralModel TableModel.
Import ListNotations.
Local Open Scope string_scope.

(** printf's %X with [k] digits, for values of at most [k] digits. *)
Definition hex_digit (n : N) : ascii := ascii_of_N (if (n <? 10)%N then 48 + n else 55 + n)%N.
Fixpoint hex (k : nat) (n : N) : string := match k with O => "" | S k' => hex k' (n / 16)%N ++ String (hex_digit (n mod 16)%N) "" end.
(** An integer of the bytes [l] in memory, first byte lowest: the compiler runs on such a machine. *)
Fixpoint word (l : list N) : N := match l with [] => 0%N | b :: r => (b + 256 * word r)%N end.
(** [while (fread(&v, size, 1, f))]: a last word that is not complete is not read. [fuel]: at most as many words as bytes. *)
Fixpoint words (fuel size : nat) (f : list N) : list N :=
  match fuel with
  | O => []
  | S k => if (length f <? size)%nat then [] else word (firstn size f) :: words k size (skipn size f)
  end.
(** 783-799. *)
Definition file_text (size : nat) (v : N) : string := to_string (N.of_nat (8 * size)) ++ "'h" ++ hex (2 * size) v.
(** [gatherInitListFromFile]. [None]: [reportError], on the width only; files that do not exist are not modelled. *)
Definition file_values (width : N) (f : list N) : option (list string) :=
  match (if width =? 8 then Some 1%nat else if width =? 16 then Some 2%nat else if width =? 32 then Some 4%nat else None)%N with
  | Some size => Some (map (file_text size) (words (length f) size f))
  | None => None
  end.

(** 817-824: [std::to_string((int)(initstr[i]))], where [char] is signed. *)
Definition int_text (z : Z) : string := match z with Zneg p => "-" ++ to_string (Npos p) | _ => to_string (Z.to_N z) end.
Definition char_text (b : N) : string := int_text (if (b <? 128)%N then Z.of_N b else Z.of_N b - 256)%Z.
Definition string_values (l : list N) : list string := map char_text l.

(** A declaration: "{file(...), pad}" or a string. *)
Definition file_table (width : N) (size : nat) (f : list N) (p : pad string) : option (table string) :=
  match file_values width f with Some l => readInitList "0" size (IList l p) | None => None end.
Definition string_table (size : nat) (l : list N) : option (table string) := readInitList "0" size (IString (string_values l)).
