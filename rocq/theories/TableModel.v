(** Table and memory initializers. *)
From Coq Require Import List Bool Arith.
Import ListNotations.

(** Padding of an initializer list. *)
Inductive pad (V : Type) := NoPad | PadWith (v : V) | PadUninit.
Arguments NoPad {V}. Arguments PadWith {V} _. Arguments PadUninit {V}.

(** Initializer of a declaration. [IList] also stands for [file(...)]: the words
    read from the file (src/Algorithm.cpp 765-802) play the role of the values.
    [IString] holds the characters, [zero] below is the terminator. *)
Inductive init (V : Type) := IList (l : list V) (p : pad V) | IString (l : list V) | IUninit | INone.
Arguments IList {V} _ _. Arguments IString {V} _. Arguments IUninit {V}. Arguments INone {V}.

(** Result: table size, and the recorded [init_values], or "do not initialize". *)
Inductive table (V : Type) := Table (size : nat) (values : list V) | TableUninit (size : nat).
Arguments Table {V} _ _. Arguments TableUninit {V} _.

(** [vector::resize(n, v)] for [n] at least the size. *)
Definition resize {V} (l : list V) (n : nat) (v : V) : list V := l ++ repeat v (n - length l).

(** [Algorithm::readInitList], src/Algorithm.cpp 806-878. [size] is the declared
    size, 0 if none (a declared size of 0 is rejected earlier, lines 735-737 and
    924-926). [None] is [reportError]. *)
Definition readInitList {V} (zero : V) (size : nat) (i : init V) : option (table V) :=
  let store := fun l p is_string =>
    if size =? 0 then Some (Table (length l) l)                        (* 838-840 *)
    else if length l =? size then Some (Table size l)
    else if length l <? size then
      if (is_string : bool) then Some (Table size l)                   (* 844-845: nothing done *)
      else match p with
           | PadWith v => Some (Table size (resize l size v))          (* 848-850 *)
           | PadUninit => Some (Table size l)                          (* 851-854 *)
           | NoPad => None                                             (* 855-862 *)
           end
    else None in                                                       (* 867-870 *)
  match i with
  | IList l p => store l p false
  | IString l => store (l ++ [zero]) NoPad true                        (* 817-824 *)
  | IUninit => if size =? 0 then None else Some (TableUninit size)     (* 826-830 *)
  | INone => None                                                      (* 826-832 *)
  end.

(** Initial value statements emitted for the entries: [ForIndex(i, init_values.size())],
    src/Algorithm.cpp 7773 (constants), 9416 (variables), 9492 (memories). Entry
    [i] is initialized to [Some v] or left unknown. *)
Definition emitted_init {V} (t : table V) (i : nat) : option V :=
  match t with Table _ l => nth_error l i | TableUninit _ => None end.

(** Reset branch of the flip-flop update of a table that is initialized on reset,
    src/Algorithm.cpp 7978-7984: [ForIndex(i, table_size) ... init_values[i]].
    [None] is an out of bounds access of the vector. *)
Definition reset_values {V} (t : table V) : option (list V) :=
  match t with
  | Table n l => if n <=? length l then Some (firstn n l) else None
  | TableUninit _ => Some []                                           (* no reset value: line 7943 *)
  end.
