(** Assembly of a source file and its includes. *)
From Coq Require Import String Ascii List Bool Arith.
Import ListNotations.
Local Open Scope string_scope.
Local Open Scope list_scope.

(** Content of a file as read by the loop of [assembleSource], src/LuaPreProcessor.cpp 932-972: words and ends
    of lines (numbered), and includes. The file named by an include is given after resolution by
    [findFile]; the accumulation of search paths (921) is not modelled: the name
    resolved is a function of the including file and of the text. *)
Inductive item := Text (n : nat) | Include (f : string).

Definition files := string -> option (list item).

Inductive res := Ok (code : list nat) | Missing (f : string) | Cycle (f : string) | NoFuel.

(** [LuaPreProcessor::assembleSource], src/LuaPreProcessor.cpp 896-977. [already] is passed by value (899). *)
Fixpoint assemble (fs : files) (fuel : nat) (already : list string) (f : string) : res :=
  match fuel with
  | O => NoFuel
  | S n =>
      match fs f with
      | None => Missing f                                              (* 903-905 *)
      | Some items =>
          if existsb (String.eqb f) already then Cycle f               (* 906-908 *)
          else
            (fix go (l : list item) (code : list nat) : res :=
               match l with
               | [] => Ok code
               | Text t :: l' => go l' (code ++ [t])
               | Include g :: l' =>
                   match assemble fs n (f :: already) g with
                   | Ok c => go l' (code ++ c)
                   | e => e
                   end
               end) items []
      end
  end.

(** Resolution of the name written in an include. *)

(** [extractFileName] (LibSL): the text after the last '/'. *)
Fixpoint file_name_aux (s acc : string) : string :=
  match s with
  | EmptyString => acc
  | String c r => if Ascii.eqb c "/"%char then file_name_aux r "" else file_name_aux r (acc ++ String c "")%string
  end.
Definition file_name (s : string) : string := file_name_aux s "".

(** [robustExtractPath], the text before the last '/', and 917-919: "." when there is none. *)
Fixpoint path_aux (s acc : string) (best : option string) : option string :=
  match s with
  | EmptyString => best
  | String c r => path_aux r (acc ++ String c "")%string (if Ascii.eqb c "/"%char then Some acc else best)
  end.
Definition path_of (s : string) : string := match path_aux s "" None with Some p => p | None => "." end.

(** [findFile(path,fname)], src/LuaPreProcessor.cpp 121-137. *)
Definition find_in (exists_ : string -> bool) (path fname : string) : string :=
  if exists_ fname then fname
  else if exists_ (path ++ "/" ++ file_name fname)%string then (path ++ "/" ++ file_name fname)%string
  else if exists_ (path ++ "/" ++ fname)%string then (path ++ "/" ++ fname)%string
  else fname.

(** The two calls in [assembleSource], src/LuaPreProcessor.cpp 947-949, [findFile(fname)] at 141-147. The search paths
    [sp] are fixed here; the code appends the folder of every assembled file. *)
Definition resolve (exists_ : string -> bool) (sp : list string) (path fname : string) : string :=
  fold_left (fun f p => find_in exists_ p f) sp (find_in exists_ path fname).

(** The files as written, and with includes resolved. *)
Definition resolve_files (raw : files) (sp : list string) : files := fun f =>
  match raw f with
  | None => None
  | Some items => Some (map (fun i => match i with
      | Text t => Text t
      | Include g => Include (resolve (fun n => match raw n with Some _ => true | None => false end) sp (path_of f) g)
      end) items)
  end.
