(** Finding the units in a source, and the Lua program that is prepared from it. *)
From Coq Require Import Ascii String List Bool Arith ZArith.
Import ListNotations.
From Verif Require Import CommentModel SplitModel.
Local Open Scope char_scope.
Local Open Scope list_scope.

Fixpoint text_eqb (a b : text) : bool :=
  match a, b with
  | [], [] => true
  | x :: a, y :: b => Ascii.eqb x y && text_eqb a b
  | _, _ => false
  end.
Definition among (l : list string) (w : text) : bool := existsb (fun k => text_eqb (txt k) w) l.

(** [LuaCodePath], src/LuaPreProcessor.cpp 1063-1107: the last element of m_IfSide comes first. *)
Definition path := list bool.
Definition consider (p : path) : bool := match p with [] => true | b :: _ => b end.
(** 1080-1101: one word of a line of Lua. *)
Definition lua_word (w : text) (p : path) : option path :=
  if among ["if"; "for"; "while"; "function"]%string w then Some (consider p :: p)
  else if among ["end"]%string w then match p with [] => None | _ :: r => Some r end
  else if among ["else"; "elseif"]%string w then match p with [] => None | _ :: r => Some (false :: r) end
  else Some p.
(** [LuaCodePath::update], 1067-1104: the path and the text left. *)
Fixpoint update (R : reader) (fuel : nat) (p : path) (s : text) : option (path * text) :=
  match fuel with
  | O => None
  | S f =>
      match s with
      | [] => Some (p, [])
      | _ =>
          let (next, s0) := peekChar true s in
          let word :=
            let (w, s1) := readString R [" "; "009"; cr; nl; quote; dquote] s0 in
            if text_eqb w (txt "--") then Some (p, s1)
            else match lua_word w p with Some p1 => update R f p1 s1 | None => None end in
          match next with
          | None => word
          | Some c =>
              if Ascii.eqb c nl then Some (p, snd (readChar true s0))
              else if oneof [quote; dquote] c then update R f p (reachChar c (snd (readChar true s0)))
              else word
          end
      end
  end.

(** [processLuaLine], 1111-1123. *)
Definition processLuaLine (R : reader) (p : path) (s : text) : option (path * text) :=
  let s1 := snd (readChar true s) in
  let (next, s2) := peekChar true s1 in
  if match next with Some d => Ascii.eqb d "$" | None => false end then
    let s3 := snd (readChar true s2) in update R (S (length s3)) p s3
  else Some (p, reachChar "$" s2).

(** [jumpOverNestedBlocks], 1127-1180. *)
Fixpoint jump_blocks (R : reader) (c_in c_out : ascii) (fuel : nat) (inside : Z) (p : path) (s : text) : option (path * text) :=
  match fuel with
  | O => None
  | S f =>
      match s with
      | [] => None                                                          (* 1178 *)
      | _ =>
          let (next, s0) := peekChar true s in
          let s1 := snd (readChar true s0) in
          match next with
          | None => jump_blocks R c_in c_out f inside p s1
          | Some c =>
              if Ascii.eqb c nl then jump_blocks R c_in c_out f inside p s1
              else if Ascii.eqb c bslash then jump_blocks R c_in c_out f inside p (snd (readChar true s1))
              else if Ascii.eqb c "$" then
                match processLuaLine R p s0 with Some (p1, s2) => jump_blocks R c_in c_out f inside p1 s2 | None => None end
              else if Ascii.eqb c "/" then
                match jumpOverComment true s0 with
                | JDone _ s2 | JNot s2 => jump_blocks R c_in c_out f inside p s2
                | JError => None
                end
              else if Ascii.eqb c dquote then
                match jumpOverString R s0 with Some (_, s2) => jump_blocks R c_in c_out f inside p s2 | None => None end
              else if Ascii.eqb c c_in then jump_blocks R c_in c_out f (if consider p then inside + 1 else inside)%Z p s1
              else if Ascii.eqb c c_out then
                let inside1 := (if consider p then inside - 1 else inside)%Z in
                if Z.eqb inside1 0 then Some (p, s1) else jump_blocks R c_in c_out f inside1 p s1
              else jump_blocks R c_in c_out f inside p s1
          end
      end
  end.
Definition jumpOverNestedBlocks (R : reader) (c_in c_out : ascii) (p : path) (s : text) : option (path * text) := jump_blocks R c_in c_out (S (length s)) 0 p s.

(** [jumpOverUnit], 1184-1202, with an empty path (1242): positions are given by the text that is left, at the beginning and at the end of the ports and at the end of the unit. *)
Definition jumpOverUnit (R : reader) (s : text) : option (text * text * text) :=
  let s0 := drop_blanks s in
  match jumpOverNestedBlocks R "(" ")" [] s0 with
  | Some (p1, s1) =>
      match p1 with
      | _ :: _ => None                                                      (* 1191-1194 *)
      | [] =>
          match jumpOverNestedBlocks R "{" "}" p1 s1 with
          | Some ([], s2) => Some (s0, s1, s2)
          | _ => None                                                       (* 1198-1201 *)
          end
      end
  | None => None
  end.

(** A unit: its name and the text left at its beginning, at the ends of its ports and at its end. *)
Record unit_loc := { u_name : text; u_start : text; u_io_start : text; u_io_end : text; u_end : text }.
(** [decomposeSource], 1206-1250: the units in the order of the source ([_units] is a map ordered by position). *)
Fixpoint decompose (R : reader) (fuel : nat) (p : path) (s : text) : option (list unit_loc) :=
  match fuel with
  | O => None
  | S f =>
      match s with
      | [] => Some []
      | _ =>
          let (next, s0) := peekChar true s in
          let word :=
            let (w, s1) := readString R [" "; "009"; cr; "/"; "*"] s0 in
            if among ["unit"; "algorithm"; "algorithm#"; "circuitry"]%string w then
              let (name, s2) := readString R ["("; " "; "009"; cr] s1 in
              match name with
              | [] => None                                                  (* 1231-1233 *)
              | _ =>
                  match jumpOverUnit R s2 with
                  | None => None
                  | Some (a, b, e) =>
                      match decompose R f p e with
                      | Some l => Some ({| u_name := name; u_start := s0; u_io_start := a; u_io_end := b; u_end := e |} :: l)
                      | None => None
                      end
                  end
              end
            else decompose R f p (match w with [] => snd (readChar true s1) | _ => s1 end) in
          match next with
          | None => word
          | Some c =>
              if Ascii.eqb c nl then decompose R f p (snd (readChar true s0))
              else if Ascii.eqb c "$" then match processLuaLine R p s0 with Some (p1, s1) => decompose R f p1 s1 | None => None end
              else if Ascii.eqb c "/" then
                match jumpOverComment true s0 with
                | JDone _ s1 | JNot s1 => decompose R f p s1
                | JError => None
                end
              else word
          end
      end
  end.
Definition decomposeSource (R : reader) (s : text) : option (list unit_loc) := decompose R (S (S (length s))) [] s.

(** The text from one position to another. *)
Definition between (a b : text) : text := firstn (length a - length b) a.

(** [nameToLua], 1254-1283 (an end of line is an assertion). *)
Fixpoint name_loop (R : reader) (fuel : nat) (first : bool) (s : text) : option text :=
  match fuel with
  | O => None
  | S f =>
      match s with
      | [] => Some []
      | _ =>
          let (next, s0) := peekChar true s in
          let dots := if first then [] else txt ".." in
          let plain :=
            let (w, s1) := readString R ["$"] s0 in
            match name_loop R f false s1 with Some t => Some (dots ++ quote :: w ++ [quote] ++ t) | None => None end in
          match next with
          | Some c =>
              if Ascii.eqb c nl then None
              else if Ascii.eqb c "$" then
                let (l, s1) := readString R ["$"] (snd (readChar true s0)) in
                match name_loop R f false (snd (readChar true s1)) with Some t => Some (dots ++ txt "(" ++ l ++ txt ")" ++ t) | None => None end
              else plain
          | None => plain
          end
      end
  end.
Definition nameToLua (R : reader) (s : text) : option text := name_loop R (S (length s)) true s.

(** [prepareCode], 1361-1403; [rest]: the text after the previous unit. *)
Definition obind {A B} (o : option A) (k : A -> option B) : option B := match o with Some a => k a | None => None end.
Fixpoint prepare (R : reader) (us : list unit_loc) (rest : text) (line : nat) : option text :=
  match us with
  | [] => obind (luaCodeSplit R rest line) (fun c => Some (fst c))
  | u :: us =>
      obind (luaCodeSplit R (between rest (u_start u)) line) (fun before =>
      obind (nameToLua R (u_name u)) (fun name =>
      let io := between (u_io_start u) (u_io_end u) in
      obind (luaCodeSplit R (removelast (tl io)) (snd before)) (fun ios =>
      obind (luaCodeSplit R (between (u_start u) (u_end u)) (snd before)) (fun body =>
      obind (prepare R us (u_end u) (snd body)) (fun last =>
      Some (fst before ++
            txt "-- =================================>>> unit IO " ++ u_name u ++ [nl] ++
            txt "_G[ '__io__' .. " ++ name ++ txt "] = function()" ++ [nl] ++ fst ios ++ txt "end" ++ [nl] ++
            txt "-- =================================>>> unit " ++ u_name u ++ [nl] ++
            txt "_G[" ++ name ++ txt "] = function()" ++ [nl] ++ fst body ++ txt "end" ++ [nl] ++
            txt "-- -----------------------------------" ++ [nl] ++ last))))))
  end.
Definition prepareCode (R : reader) (s : text) : option text := obind (decomposeSource R s) (fun us => prepare R us s 0).
