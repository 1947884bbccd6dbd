(** Lua globals around the execution of a unit by the preprocessor. *)
From Coq Require Import String List Bool.
Import ListNotations.
Local Open Scope string_scope.
Local Open Scope list_scope.

(** A Lua value; other values are numbered. *)
Inductive lua := Nil | LFalse | LVal (n : nat).

(** Raw content of the table of globals. *)
Definition globals := string -> lua.

Definition set (g : globals) (k : string) (v : lua) : globals := fun x => if String.eqb x k then v else g x.

(** Instantiation parameters ([Blueprint::t_instantiation_context::params], a [std::map]);
    values are given as the Lua value pushed by [lua_cindex] (a number or a string). *)
Definition params := list (string * nat).

Fixpoint find (ps : params) (k : string) : option nat :=
  match ps with [] => None | (k', v) :: ps' => if String.eqb k k' then Some v else find ps' k end.

(** Reading a global during the execution: the raw value, and through the [__index] hook
    [lua_cindex] if it is nil; src/LuaPreProcessor.cpp 241-259, 811-817. *)
Definition read (ps : params) (g : globals) (k : string) : lua :=
  match g k with
  | Nil => match find ps k with Some v => LVal v | None => Nil end
  | v => v
  end.

(** [luabind::object::operator bool], src/libs/luabind-deboostified/luabind/lua_proxy_interface.hpp 195-202:
    [lua_toboolean]. *)
Definition to_bool (v : lua) : bool := match v with Nil | LFalse => false | LVal _ => true end.

(** Backup loop of [LuaPreProcessor::executeLuaString], src/LuaPreProcessor.cpp 1549-1558. The hook
    returns nothing at this point since the context is not installed yet. *)
Fixpoint backup_loop (ps : params) (g : globals) (bk : list (string * lua)) : globals * list (string * lua) :=
  match ps with
  | [] => (g, bk)
  | (k, _) :: ps' =>
      if to_bool (g k) then backup_loop ps' (set g k Nil) (bk ++ [(k, g k)]) else backup_loop ps' g bk
  end.

Fixpoint findb (bk : list (string * lua)) (k : string) : option lua :=
  match bk with [] => None | (k', v) :: b' => if String.eqb k k' then Some v else findb b' k end.

(** Restore loop, src/LuaPreProcessor.cpp 1588-1594. *)
Fixpoint restore_loop (ps : params) (bk : list (string * lua)) (g : globals) : globals :=
  match ps with
  | [] => g
  | (k, _) :: ps' =>
      restore_loop ps' bk (set g k (match findb bk k with Some v => v | None => Nil end))
  end.

(** [LuaPreProcessor::executeLuaString], src/LuaPreProcessor.cpp 1545-1602, for an execution that
    does not fail; [body] is the effect of the Lua code on the raw globals, given the
    parameters. *)
Definition executeLuaString (body : params -> globals -> globals) (ps : params) (g : globals) : globals :=
  let (g1, bk) := backup_loop ps g [] in
  restore_loop ps bk (body ps g1).

(** Executing several units, or the same one several times with other parameters. *)
Fixpoint execute_all (runs : list ((params -> globals -> globals) * params)) (g : globals) : globals :=
  match runs with
  | [] => g
  | (b, ps) :: r => execute_all r (executeLuaString b ps g)
  end.
