(** From lines of the preprocessed output back to lines of the source files. *)
From Coq Require Import List Bool ZArith.
Import ListNotations.
Local Open Scope Z_scope.

(** An entry of a remapping, [v3i]: output line, file index, source line. *)
Record entry := { e_key : Z; e_file : nat; e_line : Z }.

(** [LuaPreProcessor::addingLines], src/LuaPreProcessor.cpp 172-176, called once per [output] of the
    generated Lua code with the number of ends of line of the text (158-168); a chunk is
    (number of lines, source line). The file index is not used for this remapping. *)
Fixpoint adding_lines (cur : Z) (chunks : list (Z * Z)) : list entry :=
  match chunks with
  | [] => []
  | (n, src) :: r => {| e_key := cur; e_file := 0%nat; e_line := src |} :: adding_lines (cur + n) r
  end.

(** Remapping of the assembled source, src/LuaPreProcessor.cpp 965-967: one entry per end of line;
    [lines] gives file and line of each. *)
Fixpoint source_lines (cur : Z) (lines : list (nat * Z)) : list entry :=
  match lines with
  | [] => []
  | (f, l) :: r => {| e_key := cur; e_file := f; e_line := l |} :: source_lines (cur + 1) r
  end.

(** Loop of [lineAfterToFileAndLineBefore_search], src/LuaPreProcessor.cpp 1622-1633. *)
Fixpoint search_loop (fuel : nat) (remap : list entry) (line : Z) (l r : Z) : Z :=
  match fuel with
  | O => l
  | S f =>
      if l <? r then
        let m := (l + r) / 2 in
        match nth_error remap (Z.to_nat m) with
        | None => l
        | Some e =>
            if e_key e <? line then search_loop f remap line (m + 1) r
            else if line <? e_key e then search_loop f remap line l m
            else m
        end
      else l
  end.

(** [lineAfterToFileAndLineBefore_search], src/LuaPreProcessor.cpp 1616-1634; file and line, [None] for a
    negative line (the C++ returns [("",-1)]) and for an empty remapping (the C++ reads out of
    bounds). *)
Definition search (line : Z) (remap : list entry) : option (nat * Z) :=
  if line <? 0 then None
  else match nth_error remap (Z.to_nat (search_loop (S (length remap)) remap line 0 (Z.of_nat (length remap) - 1))) with
       | Some e => Some (e_file e, e_line e)
       | None => None
       end.

(** [lineAfterToFileAndLineBefore], src/LuaPreProcessor.cpp 1638-1643. *)
Definition line_before (remap source : list entry) (line : Z) : option (nat * Z) :=
  match search line remap with
  | Some (_, l) => search l source
  | None => None
  end.

(** Line number printed by an error for a token at line [l] (from 1) of the preprocessed output:
    src/ParsingErrors.cpp 46-53 and 121-129. *)
Definition error_report (remap source : list entry) (l : Z) : option (nat * Z) :=
  option_map (fun fl => (fst fl, snd fl + 1)) (line_before remap source (l - 1)).

(** Line number printed by a warning: src/Utils.cpp 92-100. *)
Definition warn_report (remap source : list entry) (l : Z) : option (nat * Z) :=
  line_before remap source l.
