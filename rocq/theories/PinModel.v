(** Physical pins used by the ports of the top level unit. *)
From Coq Require Import String List Bool ZArith.
Import ListNotations.
Local Open Scope string_scope.
Local Open Scope list_scope.

(** src/SiliceCompiler.h, [e_PortType]. *)
Inductive ptype := Input | Output | InOut.

(** A pin reference, as stored in [LuaPreProcessor::m_PinGroups]: pin name (empty when
    unused) and bit, [-1] for the whole pin. *)
Definition pinref := (string * Z)%type.

(** The framework: declared pins with their width, and pin groups. *)
Record framework := { pins : string -> option Z; groups : string -> option (list pinref) }.

(** [LuaPreProcessor::isIOPortDefined] and [pinsUsedByIOPort],
    src/LuaPreProcessor.cpp 872-881. *)
Definition pinsUsedByIOPort (fw : framework) (port : string) : option (list pinref) :=
  match pins fw port with
  | Some _ => Some [(port, (-1)%Z)]
  | None => groups fw port
  end.

(** [std::map<std::string,e_PortType>], as an association list; [insert] does nothing if
    the key is present. *)
Definition used := list (string * ptype).
Definition is_used (u : used) (p : string) : bool := existsb (fun e => String.eqb (fst e) p) u.
Definition insert_used (u : used) (p : string) (t : ptype) : used := if is_used u p then u else u ++ [(p, t)].

(** Loop on the pins of a port, src/SiliceCompiler.cpp 570-582; [None] is the error
    "pin is used multiple times". *)
Fixpoint add_pins (u : used) (t : ptype) (l : list pinref) : option used :=
  match l with
  | [] => Some u
  | (p, bit) :: l' =>
      if String.eqb p "" then add_pins u t l'
      else if (bit =? -1)%Z && is_used u p then None
      else add_pins (insert_used u p t) t l'
  end.

(** [SiliceCompiler::addTopModulePort], src/SiliceCompiler.cpp 551-585. An undefined port
    is an error here (the option disabling this check is not modelled). *)
Definition addTopModulePort (fw : framework) (port : string) (t : ptype) (u : used) : option used :=
  match pinsUsedByIOPort fw port with
  | None => None
  | Some [] => None
  | Some l => add_pins u t l
  end.

(** All the ports of the unit, inputs then outputs then inouts,
    src/SiliceCompiler.cpp 665-681. *)
Fixpoint add_ports (fw : framework) (ps : list (string * ptype)) (u : used) : option used :=
  match ps with
  | [] => Some u
  | (p, t) :: ps' => match addTopModulePort fw p t u with
                     | Some u' => add_ports fw ps' u'
                     | None => None
                     end
  end.

(** The connections written in the glue, src/SiliceCompiler.cpp 610-637: for each port, the
    list of the pins (name and bit) concatenated on it; unused ones get a fresh wire. *)
Definition connections (fw : framework) (ps : list (string * ptype)) : list (string * ptype * pinref) :=
  flat_map (fun pt => match pinsUsedByIOPort fw (fst pt) with
                      | Some l => map (fun r => (fst pt, snd pt, r)) (filter (fun r => negb (String.eqb (fst r) "")) l)
                      | None => []
                      end) ps.
