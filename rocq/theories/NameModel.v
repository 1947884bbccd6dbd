(** Names of the variables of an algorithm: declaration checks, block renaming, [sameas]
    and the signals named by stability assumptions. *)
From Coq Require Import String Ascii List Bool Arith DecimalString.
Import ListNotations.
Local Open Scope string_scope.
Local Open Scope list_scope.

Definition mem (x : string) (l : list string) : bool := existsb (String.eqb x) l.

(** The names known to an algorithm while its source is gathered ([m_Subroutines],
    [m_InstancedBlueprints], [m_InputNames], [m_OutputNames], [m_InOutNames], [m_MemoryNames],
    [m_Vars] by name, in declaration order). *)
Record names := {
  n_subs : list string; n_insts : list string; n_ins : list string; n_outs : list string;
  n_inouts : list string; n_mems : list string; n_vars : list string }.

Inductive availability := Collision | Shadowing | Available.

(** [Algorithm::isIdentifierAvailable], src/Algorithm.cpp 2212-2265. [subios]: inputs and outputs
    of the enclosing subroutine; [scope]: base names of the variables declared in the enclosing
    blocks. *)
Definition isIdentifierAvailable (e : names) (subios scope : list string) (base name : string) : availability :=
  if mem base (n_subs e) || mem base subios || mem base (n_insts e) || mem base (n_ins e)
     || mem base (n_outs e) || mem base (n_inouts e) || mem base (n_mems e) || mem name (n_vars e)
  then Collision
  else if mem base scope then Shadowing else Available.

(** [Algorithm::blockVIOName], src/Algorithm.cpp 2436-2443. *)
Definition blockVIOName (block vio : string) : string :=
  if String.eqb block "_top" then vio else (block ++ "_" ++ vio)%string.

(** [Algorithm::insertVar], src/Algorithm.cpp 524-546: no check. *)
Definition insertVar (e : names) (name : string) : names :=
  {| n_subs := n_subs e; n_insts := n_insts e; n_ins := n_ins e; n_outs := n_outs e;
     n_inouts := n_inouts e; n_mems := n_mems e; n_vars := n_vars e ++ [name] |}.

(** [Algorithm::addVar], src/Algorithm.cpp 550-583; shadowing is only a warning. *)
Definition addVar (e : names) (subios scope : list string) (block base : string) : option names :=
  match isIdentifierAvailable e subios scope base (blockVIOName block base) with
  | Collision => None
  | _ => Some (insertVar e (blockVIOName block base))
  end.

(** Decimal printing, [std::to_string]. *)
Definition to_string (n : nat) : string := NilZero.string_of_uint (Nat.to_uint n).

(** Name of a pipeline, src/Algorithm.cpp 2580. *)
Definition pipelineName (line index : nat) : string :=
  ("__pip_" ++ to_string line ++ "_" ++ to_string index)%string.

(** [Algorithm::tricklingVIOName], src/Algorithm.cpp 2447-2450. *)
Definition tricklingVIOName (vio pip : string) (stage : nat) : string :=
  (pip ++ "_" ++ to_string stage ++ "_" ++ vio)%string.

(** Variable holding an input or output of a subroutine, src/Algorithm.cpp 2391. *)
Definition subroutineVar (is_input : bool) (sub io : string) : string :=
  ((if is_input then "i" else "o") ++ "_" ++ sub ++ "_" ++ io)%string.

(** Declaration of a subroutine parameter, src/Algorithm.cpp 2380-2410: the io name is
    checked against the inputs, outputs and variables, then the variable is inserted without check. *)
Definition addSubroutineIO (e : names) (is_input : bool) (sub io : string) : option names :=
  if mem io (n_ins e) || mem io (n_outs e) || mem io (n_vars e) then None
  else Some (insertVar e (subroutineVar is_input sub io)).

(** The kinds of declarations inserting variables. Variables of instances (their prefix is
    ["_" ++ instance], src/Algorithm.cpp 6498-6519), group members (1140) and memory ports use
    [addVar] as well. *)
Inductive decl :=
| DVar (subios scope : list string) (block base : string)
| DSubIO (is_input : bool) (sub io : string).

Definition declare (e : names) (d : decl) : option names :=
  match d with
  | DVar s sc b v => addVar e s sc b v
  | DSubIO i s v => addSubroutineIO e i s v
  end.

Fixpoint declare_all (e : names) (ds : list decl) : option names :=
  match ds with
  | [] => Some e
  | d :: ds' => match declare e d with Some e' => declare_all e' ds' | None => None end
  end.

(** Which Verilog signal an (already translated) name designates: order of the tests of
    [Algorithm::rewriteIdentifier], src/Algorithm.cpp 1586-1660. *)
Inductive signal := SInput (n : string) | SInOut (n : string) | SOutput (n : string) | SVar (index : nat).

Fixpoint index_of (x : string) (l : list string) : option nat :=
  match l with
  | [] => None
  | y :: l' => if String.eqb x y then Some 0 else option_map S (index_of x l')
  end.

Definition resolve (e : names) (name : string) : option signal :=
  if mem name (n_ins e) then Some (SInput name)
  else if mem name (n_inouts e) then Some (SInOut name)
  else if mem name (n_outs e) then Some (SOutput name)
  else option_map SVar (index_of name (n_vars e)).

(** * sameas *)

(** Type information of a variable ([t_type_nfo]): a width, or [same_as] the named variable. *)
Inductive typ := TWidth (w : nat) | TSameAs (root : string).

(** Declared variables and ports with their type; [m_VarNames], [m_InputNames], [m_OutputNames] searched
    in this order (inouts are handled as groups and are not modelled here). *)
Definition tenv := list (string * typ).

Fixpoint lookup {A} (x : string) (l : list (string * A)) : option A :=
  match l with
  | [] => None
  | (y, a) :: l' => if String.eqb x y then Some a else lookup x l'
  end.

(** [Algorithm::translateVIOName], src/Algorithm.cpp 1394-1426, for a block outside of pipelines:
    subroutine rules then block rules. *)
Definition rules := list (string * string).
Definition rewrite1 (r : rules) (v : string) : string := match lookup v r with Some v' => v' | None => v end.
Definition translateVIOName (sub blk : rules) (v : string) : string := rewrite1 blk (rewrite1 sub v).

(** [Algorithm::findSameAsRoot], src/Algorithm.cpp 1195-1221; [None]: the loop did not finish
    within [fuel] iterations. *)
Fixpoint findSameAsRoot (fuel : nat) (e : tenv) (sub blk : rules) (v : string) : option string :=
  match fuel with
  | O => None
  | S f =>
      let v1 := translateVIOName sub blk v in
      match lookup v1 e with
      | Some (TSameAs b) => findSameAsRoot f e sub blk b
      | _ => Some v1
      end
  end.

(** [Algorithm::gatherTypeNfo] for [sameas(base)], src/Algorithm.cpp 1229-1252 (not a group). *)
Definition gatherSameAs (fuel : nat) (e : tenv) (sub blk : rules) (base : string) : option typ :=
  let b := translateVIOName sub blk base in
  match lookup b e with
  | Some _ => option_map TSameAs (findSameAsRoot fuel e sub blk b)
  | None => None
  end.

(** The width a variable ends up with: its own or that of the variable named by [same_as]. *)
Definition width_of (e : tenv) (v : string) : option nat :=
  match lookup v e with
  | Some (TWidth w) => Some w
  | Some (TSameAs r) => match lookup r e with Some (TWidth w) => Some w | _ => None end
  | None => None
  end.

(** * Stability assumptions *)

(** [#stableinput(id)] or [#stableinput(base.member)]. *)
Inductive idOrIoAccess := AId (id : string) | AMember (base member : string).

(** [Algorithm::gatherStableinputCheck], src/Algorithm.cpp 2174-2208: the recorded name. [groups]:
    members of the known groups. *)
Definition gatherStableinputCheck (e : names) (groups : list (string * list string)) (sub blk : rules)
  (a : idOrIoAccess) : option string :=
  match a with
  | AId id =>
      let b := translateVIOName sub blk id in
      if mem b (n_ins e) || mem b (n_inouts e) then Some b else None
  | AMember base member =>
      match lookup base groups with
      | None => None
      | Some ms =>
          if mem member ms then
            let vname := (base ++ "_" ++ member)%string in
            if mem vname (n_ins e) || mem vname (n_inouts e) then Some base else None
          else None
      end
  end.

(** Signal named in the emitted assumption, src/Algorithm.cpp 8135: [in_<name>]. *)
Definition assumed_signal (name : string) : string := ("in_" ++ name)%string.

(** Input signals of the module: [in_<input>] for inputs; [inout_<name>] for inouts. *)
Definition module_signals (e : names) : list string :=
  map (fun n => ("in_" ++ n)%string) (n_ins e) ++ map (fun n => ("inout_" ++ n)%string) (n_inouts e).
