(** Skipping comments in the preprocessor. *)
From Coq Require Import Ascii List Bool Arith.
Import ListNotations.
Local Open Scope char_scope.

Definition nl : ascii := "010".
Definition is_blank (c : ascii) : bool := Ascii.eqb c " " || Ascii.eqb c "009".

(** The stream is the list of the characters left. [LibSL::BasicParser] is an external
    library which is not part of the repository (src/libs/LibSL-small is an empty submodule): the primitives below are
    the behaviour its uses rely on. [sb] tells whether reading skips leading blanks; the
    theorems hold in both cases. *)
Fixpoint drop_blanks (s : list ascii) : list ascii :=
  match s with
  | c :: r => if is_blank c then drop_blanks r else s
  | [] => []
  end.
Definition skip (sb : bool) (s : list ascii) : list ascii := if sb then drop_blanks s else s.

(** [readChar()]: the character, consumed. *)
Definition readChar (sb : bool) (s : list ascii) : option ascii * list ascii :=
  match skip sb s with [] => (None, []) | c :: r => (Some c, r) end.

(** [readChar(false)]: the character is left in the stream. *)
Definition peekChar (sb : bool) (s : list ascii) : option ascii * list ascii :=
  match skip sb s with [] => (None, []) | c :: r => (Some c, c :: r) end.

(** [readString("\n")]: up to the end of line, which is left. *)
Fixpoint until_nl (s : list ascii) : list ascii :=
  match s with
  | [] => []
  | c :: r => if Ascii.eqb c nl then s else until_nl r
  end.

(** [reachChar(c)]: up to the first [c], consumed. *)
Fixpoint reachChar (c : ascii) (s : list ascii) : list ascii :=
  match s with
  | [] => []
  | d :: r => if Ascii.eqb d c then r else reachChar c r
  end.

Inductive jump := JDone (numlines : nat) (rest : list ascii) | JNot (rest : list ascii) | JError.

Definition count_nl (s : list ascii) : nat := length (filter (fun c => Ascii.eqb c nl) s).

(** Loop of the block comment, src/LuaPreProcessor.cpp 1006-1018; [start] is the text at the beginning
    of the comment, used to count the lines skipped. *)
Fixpoint block_loop (sb : bool) (fuel : nat) (start s : list ascii) : jump :=
  match fuel with
  | O => JError
  | S f =>
      match s with
      | [] => JError                                         (* eof, 1019-1022 *)
      | _ =>
          let s1 := reachChar "*" s in
          match readChar sb s1 with
          | (Some c, s2) =>
              if Ascii.eqb c "/" then JDone (count_nl (firstn (length start - length s2) start)) s2
              else block_loop sb f start s2
          | (None, s2) => block_loop sb f start s2
          end
      end
  end.

(** [jumpOverComment], src/LuaPreProcessor.cpp 993-1027, called on a ['/']. *)
Definition jumpOverComment (sb : bool) (s : list ascii) : jump :=
  let (_, s1) := readChar sb s in
  match peekChar sb s1 with
  | (Some c, s2) =>
      if Ascii.eqb c "/" then JDone 0 (until_nl (skip sb s2))
      else if Ascii.eqb c "*" then
        let (_, s3) := readChar sb s2 in
        block_loop sb (S (length s3)) s3 s3
      else JNot s2
  | (None, s2) => JNot s2
  end.
