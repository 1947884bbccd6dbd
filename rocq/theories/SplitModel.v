(** From source text with Lua to the text of a Lua program. *)
From Coq Require Import Ascii String List Bool Arith DecimalString.
Import ListNotations.
From Verif Require Import CommentModel.
Local Open Scope char_scope.

Definition text := list ascii.
Definition txt (s : string) : text := list_ascii_of_string s.

Definition quote : ascii := "'".
Definition dquote : ascii := """".
Definition bslash : ascii := "\".
Definition cr : ascii := "013".

Definition oneof (l : text) (c : ascii) : bool := existsb (Ascii.eqb c) l.
Fixpoint span (p : ascii -> bool) (s : text) : text * text :=
  match s with
  | [] => ([], [])
  | c :: r => if p c then let (a, b) := span p r in (c :: a, b) else ([], s)
  end.

(** How [LibSL::BasicParser::Parser] reads (see CommentModel): [readChar] skips blanks (indented $include are recognized by 935, as in tests/inc.si); whether [readString] skips blanks
    before the string and always stops at ends of lines is left open, the theorems hold in all cases. *)
Record reader := { r_str : bool; r_eol : bool }.

(** [readString(eos)]: up to one of [eos], which is left. *)
Definition readString (R : reader) (eos s : text) : text * text :=
  span (fun c => negb (oneof eos c || (r_eol R && Ascii.eqb c nl))) (skip (r_str R) s).

(** [luaProtectString], src/LuaPreProcessor.cpp 833-837. *)
Fixpoint protect (s : text) : text :=
  match s with [] => [] | c :: r => if Ascii.eqb c quote then bslash :: quote :: protect r else c :: protect r end.

(** [jumpOverString], 1030-1050: the content of the string, to be put in a Lua string. *)
Fixpoint string_loop (R : reader) (fuel : nat) (str s : text) : option (text * text) :=
  match fuel with
  | O => None
  | S f =>
      match s with
      | [] => None                                                          (* eof, 1049 *)
      | _ =>
          let (chunk, s1) := readString R [dquote; bslash] s in
          let (next, s2) := readChar true s1 in
          match next with
          | None => string_loop R f (str ++ chunk) s2
          | Some c =>
              if Ascii.eqb c bslash then
                let (e, s3) := readChar true s2 in
                string_loop R f (str ++ chunk ++ [bslash; bslash] ++ match e with Some e => [e] | None => [] end) s3
              else if Ascii.eqb c dquote then Some (str ++ chunk, s2)
              else string_loop R f (str ++ chunk) s2
          end
      end
  end.
Definition jumpOverString (R : reader) (s : text) : option (text * text) :=
  let (_, s1) := readChar true s in string_loop R (S (length s1)) [] s1.

(** Text of a number ([std::to_string]). *)
Definition digits (n : nat) : text := txt (NilEmpty.string_of_uint (Nat.to_uint n)).

(** The call written for a line, 1297-1302 and 1349-1354. *)
Definition output_call (current : text) (line : nat) : text :=
  txt "output('" ++ current ++ txt "\n'," ++ digits line ++ txt ",0)" ++ [nl].
Definition flush (current : text) (line : nat) : text := match current with [] => [] | _ => output_call current line end.
(** incode[bs.pos()] == ' ' *)
Definition blank_after (s : text) : text := match s with " " :: _ => [" "] | _ => [] end.

(** [luaCodeSplit], 1287-1357: the Lua text and the line reached; [None] when the preprocessor stops with an error. *)
Fixpoint split_loop (R : reader) (fuel : nat) (code current : text) (line : nat) (s : text) : option (text * nat) :=
  match fuel with
  | O => None
  | S f =>
      match s with
      | [] => Some (code ++ flush current line, line)
      | _ =>
          let (next, s0) := peekChar true s in
          let other :=
            let (w, s1) := readString R [bslash; cr; nl; "$"; " "; dquote] s0 in
            split_loop R f code (current ++ protect w ++ blank_after s1) line s1 in
          match next with
          | None => other
          | Some c =>
              if Ascii.eqb c nl then
                let (_, s1) := readChar true s0 in split_loop R f (code ++ flush current line) [] (S line) s1
              else if Ascii.eqb c bslash then
                let (_, s1) := readChar true s0 in
                let (e, s2) := readChar true s1 in
                split_loop R f code (current ++ bslash :: match e with Some e => [e] | None => [] end) line s2
              else if Ascii.eqb c "/" then
                match jumpOverComment true s0 with
                | JDone k s1 => split_loop R f code current (line + k) s1
                | JNot s1 => split_loop R f code (current ++ ["/"]) line s1
                | JError => None
                end
              else if Ascii.eqb c dquote then
                match jumpOverString R s0 with
                | Some (str, s1) => split_loop R f code (current ++ dquote :: str ++ [dquote]) line s1
                | None => None
                end
              else if Ascii.eqb c "$" then
                let (_, s1) := readChar true s0 in
                let (c2, s2) := peekChar true s1 in
                if match c2 with Some d => Ascii.eqb d "$" | None => false end then
                  let (_, s3) := readChar true s2 in
                  let (l, s4) := readString R [nl] s3 in
                  split_loop R f (code ++ l ++ [nl]) current line s4
                else
                  let (l, s3) := readString R ["$"] s2 in
                  let (_, s4) := readChar true s3 in
                  split_loop R f code (current ++ txt "' .. (" ++ l ++ txt ") .. '" ++ blank_after s4) line s4
              else other
          end
      end
  end.
(** A line end of a text that does not end with one is the end of the buffer. *)
Definition luaCodeSplit (R : reader) (s : text) (line : nat) : option (text * nat) := split_loop R (S (length s)) [] [] line s.

(** * Reading Lua. *)

(** A string of Lua after its opening quote: the string and the text after the closing quote; escapes n, t, r, backslash and the two quotes (others are not read, an end of line ends
    the program with an error). *)
Fixpoint lua_string (q : ascii) (s : text) : option (text * text) :=
  match s with
  | [] => None
  | c :: r =>
      if Ascii.eqb c q then Some ([], r)
      else if Ascii.eqb c nl then None
      else if Ascii.eqb c bslash then
        match r with
        | [] => None
        | e :: r1 =>
            let v := if Ascii.eqb e "n" then Some nl else if Ascii.eqb e "t" then Some "009" else if Ascii.eqb e "r" then Some cr
                     else if oneof [bslash; quote; dquote] e then Some e else None in
            match v, lua_string q r1 with Some v, Some (t, r2) => Some (v :: t, r2) | _, _ => None end
        end
      else match lua_string q r with Some (t, r1) => Some (c :: t, r1) | None => None end
  end.
(** Where the string that was opened by [q] ends: the text before, with its closing quote, and the text after. *)
Fixpoint lua_quoted (q : ascii) (s : text) : option (text * text) :=
  match s with
  | [] => None
  | c :: r =>
      if Ascii.eqb c q then Some ([c], r)
      else if Ascii.eqb c bslash then
        match r with
        | [] => None
        | e :: r1 => match lua_quoted q r1 with Some (a, b) => Some (c :: e :: a, b) | None => None end
        end
      else match lua_quoted q r with Some (a, b) => Some (c :: a, b) | None => None end
  end.
(** A parenthesised expression after its opening parenthesis: its text and the text after the closing parenthesis; parentheses in strings do not count. *)
Fixpoint lua_paren (fuel depth : nat) (s : text) : option (text * text) :=
  match fuel with
  | O => None
  | S f =>
      match s with
      | [] => None
      | c :: r =>
          if Ascii.eqb c ")" then
            match depth with
            | O => Some ([], r)
            | S d => match lua_paren f d r with Some (a, b) => Some (c :: a, b) | None => None end
            end
          else if Ascii.eqb c "(" then match lua_paren f (S depth) r with Some (a, b) => Some (c :: a, b) | None => None end
          else if oneof [quote; dquote] c then
            match lua_quoted c r with
            | Some (q, r1) => match lua_paren f depth r1 with Some (a, b) => Some (c :: q ++ a, b) | None => None end
            | None => None
            end
          else match lua_paren f depth r with Some (a, b) => Some (c :: a, b) | None => None end
      end
  end.

(** The argument of output: strings and expressions joined by [..]. *)
Inductive atom := Lit (t : text) | Code (c : text).
Fixpoint expect (p s : text) : option text :=
  match p, s with
  | [], _ => Some s
  | a :: p, b :: s => if Ascii.eqb a b then expect p s else None
  | _, _ => None
  end.
Definition lua_atom (s : text) : option (atom * text) :=
  match s with
  | c :: r =>
      if Ascii.eqb c quote then match lua_string quote r with Some (t, r1) => Some (Lit t, r1) | None => None end
      else if Ascii.eqb c "(" then match lua_paren (S (length r)) 0 r with Some (t, r1) => Some (Code t, r1) | None => None end
      else None
  | [] => None
  end.
Fixpoint lua_atoms (fuel : nat) (s : text) : option (list atom * text) :=
  match fuel with
  | O => None
  | S f =>
      match lua_atom s with
      | None => None
      | Some (a, r) =>
          match expect (txt " .. ") r with
          | Some r1 => match lua_atoms f r1 with Some (l, r2) => Some (a :: l, r2) | None => None end
          | None => Some ([a], r)
          end
      end
  end.
Definition isdigit (c : ascii) : bool := oneof (txt "0123456789") c.
Definition lua_number (s : text) : option (nat * text) :=
  let (a, b) := span isdigit s in
  match NilEmpty.uint_of_string (string_of_list_ascii a) with Some u => Some (Nat.of_uint u, b) | None => None end.
(** A call output(e,line,0) on a line. *)
Definition lua_call (s : text) : option (list atom * nat * text) :=
  match expect (txt "output(") s with
  | None => None
  | Some s1 =>
      match lua_atoms (S (length s1)) s1 with
      | None => None
      | Some (l, s2) =>
          match expect (txt ",") s2 with
          | None => None
          | Some s3 =>
              match lua_number s3 with
              | None => None
              | Some (n, s4) => match expect (txt ",0)" ++ [nl]) s4 with Some s5 => Some (l, n, s5) | None => None end
              end
          end
      end
  end.

(** What a call outputs ([lua_output] 158-167 writes its string), [ev] gives the values of expressions as strings. *)
Definition atom_value (ev : text -> text) (a : atom) : text := match a with Lit t => t | Code c => ev c end.
Definition atoms_value (ev : text -> text) (l : list atom) : text := concat (map (atom_value ev) l).
(** A program of calls only. *)
Fixpoint lua_run (ev : text -> text) (fuel : nat) (s : text) : option text :=
  match fuel with
  | O => None
  | S f =>
      match s with
      | [] => Some []
      | _ => match lua_call s with
             | None => None
             | Some (l, _, r) => match lua_run ev f r with Some t => Some (atoms_value ev l ++ t) | None => None end
             end
      end
  end.
