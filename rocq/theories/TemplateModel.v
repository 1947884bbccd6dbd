(** Verilog templates. *)
From Coq Require Import String Ascii List Bool Arith.
Import ListNotations.
Local Open Scope list_scope.

Definition text := list ascii.
Definition pct : ascii := "%"%char.
Definition dollar : ascii := "$"%char.

(** Characters of the keys given by the compiler (src/Algorithm.cpp 9433-9494, src/SiliceCompiler.cpp 695-699):
    letters, digits and underscore, none of which is special in a regular expression. *)
Definition identb (c : ascii) : bool :=
  let n := nat_of_ascii c in
  ((65 <=? n) && (n <=? 90)) || ((97 <=? n) && (n <=? 122)) || ((48 <=? n) && (n <=? 57)) || (n =? 95).

Fixpoint prefixb (p s : text) : bool :=
  match p, s with
  | [], _ => true
  | _, [] => false
  | a :: p', b :: s' => Ascii.eqb a b && prefixb p' s'
  end.

(** The regular expression of a key, src/VerilogTemplate.cpp 55. *)
Definition pattern (key : text) : text := pct :: key ++ [pct].

Definition is_digit (c : ascii) : bool := let n := nat_of_ascii c in (48 <=? n) && (n <=? 57).
Definition digit_val (c : ascii) : nat := nat_of_ascii c - 48.

(** Expansion of the replacement by [std::regex_replace] with its default (ECMAScript) format: "$$", "$&", "$`", "$'" and
    "$n" or "$nn", only group 0 existing here. [pre], [m], [suf] are the text since the previous match, the match, and the text after. *)
Fixpoint fmt (fuel : nat) (pre m suf v : text) : text :=
  match fuel with
  | O => []
  | S n =>
      match v with
      | [] => []
      | c :: v1 =>
          if Ascii.eqb c dollar then
            match v1 with
            | [] => [dollar]
            | d :: v2 =>
                if Ascii.eqb d dollar then dollar :: fmt n pre m suf v2
                else if Ascii.eqb d "&"%char then m ++ fmt n pre m suf v2
                else if Ascii.eqb d "`"%char then pre ++ fmt n pre m suf v2
                else if Ascii.eqb d "'"%char then suf ++ fmt n pre m suf v2
                else if is_digit d then
                  match v2 with
                  | e :: v3 =>
                      if is_digit e then (if 10 * digit_val d + digit_val e =? 0 then m else []) ++ fmt n pre m suf v3
                      else (if digit_val d =? 0 then m else []) ++ fmt n pre m suf v2
                  | [] => if digit_val d =? 0 then m else []
                  end
                else dollar :: fmt n pre m suf v1
            end
          else c :: fmt n pre m suf v1
      end
  end.

(** [std::regex_replace(code,rexp,value)] for a literal pattern: leftmost matches, without overlap, over the
    whole text. *)
Fixpoint replace (fuel : nat) (pat v : text) (pre s : text) : text :=
  match fuel with
  | O => []
  | S n =>
      match s with
      | [] => []
      | c :: r =>
          if prefixb pat s then
            let suf := skipn (List.length pat) s in
            fmt (S (List.length v)) pre pat suf v ++ replace n pat v [] suf
          else c :: replace n pat v (pre ++ [c]) r
      end
  end.
Definition regex_replace (code key v : text) : text := replace (S (List.length code)) (pattern key) v [] code.

(** [VerilogTemplate::fromString], src/VerilogTemplate.cpp 51-59. The replacements are in an unordered map: any order. *)
Definition from_string (code : text) (repl : list (text * text)) : text :=
  fold_left (fun c kv => regex_replace c (fst kv) (snd kv)) repl code.
