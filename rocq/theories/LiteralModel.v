(** Sized literals. *)
From Coq Require Import String Ascii List Bool Arith NArith Decimal DecimalString.
Import ListNotations.
Local Open Scope string_scope.
Local Open Scope list_scope.

Definition digitb (c : ascii) : bool := let n := nat_of_ascii c in (48 <=? n)%nat && (n <=? 57)%nat.
Definition hexletterb (c : ascii) : bool :=
  let n := nat_of_ascii c in ((97 <=? n)%nat && (n <=? 102)%nat) || ((65 <=? n)%nat && (n <=? 70)%nat).
Definition xzb (c : ascii) : bool := Ascii.eqb c "x"%char || Ascii.eqb c "z"%char.
Definition valueb (c : ascii) : bool := digitb c || hexletterb c || xzb c.
Definition baseb (c : ascii) : bool := Ascii.eqb c "b"%char || Ascii.eqb c "h"%char || Ascii.eqb c "d"%char.

(** Longest prefix of digits, and the rest. *)
Fixpoint span_digits (s : string) : string * string :=
  match s with
  | EmptyString => ("", "")
  | String c r => if digitb c then let (a, b) := span_digits r in (String c a, b) else ("", s)
  end.

Fixpoint all_chars (p : ascii -> bool) (s : string) : bool :=
  match s with EmptyString => true | String c r => p c && all_chars p r end.

Definition empty (s : string) : bool := match s with EmptyString => true | _ => false end.

(** An optional first '-', an optional first quote. *)
Definition strip_minus (s : string) : bool * string :=
  match s with String c r => if Ascii.eqb c "-"%char then (true, r) else (false, s) | EmptyString => (false, s) end.
Definition strip_quote (s : string) : string :=
  match s with String c r => if Ascii.eqb c "'"%char then r else s | EmptyString => s end.

(** The tokens SIZED_NUMBER, antlr/silice.g4 157: sign, width, base, value. *)
Definition lex_sized (s : string) : option (bool * string * ascii * string) :=
  let '(neg, r) := strip_minus s in
  let (w, r1) := span_digits r in
  match r1 with
  | String b v => if negb (empty w) && baseb b && negb (empty v) && all_chars valueb v then Some (neg, w, b, v) else None
  | EmptyString => None
  end.

(** [splitNumber], src/TypesAndConsts.cpp 51-62, on a text matched from its start to its end: the optional quote is skipped.
    The width is given by [atoi]; above INT_MAX its result is undefined ([None]). *)
Definition atoi (digits : string) : option N :=
  match NilZero.uint_of_string digits with
  | Some d => let n := N.of_uint d in if (n <=? 2147483647)%N then Some n else None
  | None => None
  end.

Definition split_number (s : string) : option (N * ascii * string * bool) :=
  let '(neg, r) := strip_minus s in
  let (w, r1) := span_digits r in
  let r2 := strip_quote r1 in
  match r2 with
  | String b v =>
      if negb (empty w) && baseb b && negb (empty v) && all_chars valueb v
      then match atoi w with Some n => Some (n, b, v, neg) | None => None end
      else None
  | EmptyString => None
  end.

(** [std::to_string]. *)
Definition to_string (n : N) : string := NilZero.string_of_uint (N.to_uint n).

(** [Algorithm::rewriteNumber], src/Algorithm.cpp 419-427. *)
Definition rewrite_number (s : string) : option string :=
  match split_number s with
  | Some (w, b, v, neg) => Some ((if neg : bool then "-" else "") ++ to_string w ++ "'" ++ String b v)%string
  | None => None
  end.

(** [isNumber], src/TypesAndConsts.cpp 81-107, for sized texts. *)
Definition digits_ok (b : ascii) (v : string) : bool :=
  if Ascii.eqb b "b"%char then all_chars (fun c => Ascii.eqb c "0"%char || Ascii.eqb c "1"%char || xzb c) v
  else if Ascii.eqb b "d"%char then all_chars (fun c => digitb c || xzb c) v
  else all_chars valueb v.
Definition is_number_sized (s : string) : bool :=
  match split_number s with Some (_, b, v, _) => digits_ok b v | None => false end.
