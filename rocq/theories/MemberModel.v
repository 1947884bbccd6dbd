(** Groups and interfaces: ports and variables made from their members.
    src/Algorithm.cpp 613-667 (gatherVarNfo), 1119-1149 (gatherDeclarationGroup), 1225-1265 (gatherTypeNfo), 3340-3413 (gatherInputNfo, gatherOutputNfo, gatherInoutNfo),
    3417-3424 (gatherIoDef), 3428-3442 (var_nfo_copy), 3446-3548 (gatherIoGroup), 3552-3625 (gatherIoInterface), 3629-3693 (gatherIOs). *)
From Coq Require Import String List Bool NArith.
Import ListNotations.
Local Open Scope string_scope.

(** The text of a declaration (antlr/silice.g4 209-214). [TSame] is sameas on a variable, [TSameGroup] on a group. In initializers [None] is uninitialized. *)
Inductive ttype := TSized (signed : bool) (w : N) | TAuto | TSame | TSameGroup.
Inductive vinit := VNone | VSet (v : option string) | VCstr (v : option string) | VExpr.
Record var := { v_name : string; v_type : ttype; v_init : vinit; v_attr : string }.
Inductive dir := Input | Output | InOut.
(** antlr/silice.g4 232: an entry of the list of a group or of an interface. *)
Record io := { io_dir : dir; io_comb : bool; io_nocheck : bool; io_name : string; io_init : option (option string) }.
(** antlr/silice.g4 251, 436: plain ports; "input grp g", "output! grp g", "grp g { ... }", "itf g". *)
Inductive item :=
| Plain (d : dir) (comb nocheck : bool) (v : var)
| Whole (d : dir) (comb nocheck : bool) (id g : string)
| Listed (also : bool) (id g : string) (l : list io)
| Iface (id g : string).

(** [t_var_nfo], src/Blueprint.h 72-87. *)
Inductive ntype := Sized (signed : bool) (w : N) | Param.
Record nfo := { n_name : string; n_type : ntype; n_init : option string; n_uninit : bool; n_startup : bool; n_attr : string }.

(** 613-667, 1225-1265. The boolean is "initialized by an expression". [None]: an error is reported. *)
Definition gatherVarNfo (default_no_init : bool) (v : var) : option (nfo * bool) :=
  let mk i u s := {| n_name := v_name v; n_type := match v_type v with TSized s w => Sized s w | _ => Param end; n_init := i; n_uninit := u; n_startup := s; n_attr := v_attr v |} in
  match v_type v with
  | TSameGroup => Some ({| n_name := v_name v; n_type := Param; n_init := None; n_uninit := false; n_startup := false; n_attr := "" |}, false)
  | _ =>
    match v_init v with
    | VSet (Some x) => Some (mk (Some x) false false, false)
    | VSet None => Some (mk None true false, false)
    | VCstr (Some x) => Some (mk (Some x) false true, false)
    | VCstr None => Some (mk None true true, false)
    | VExpr => Some (mk None true false, true)
    | VNone => if default_no_init then Some (mk None true false, false) else None
    end
  end.
Definition is_group (v : var) : bool := match v_type v with TSameGroup => true | _ => false end.
Definition is_param (n : nfo) : bool := match n_type n with Param => true | _ => false end.
(** [var_nfo_copy] then the name of the port. *)
Definition with_name (n : nfo) (s : string) : nfo :=
  {| n_name := s; n_type := n_type n; n_init := n_init n; n_uninit := n_uninit n; n_startup := n_startup n; n_attr := n_attr n |}.

(** Ports of the unit. Outputs: combinational, without check of cycles; inouts: combinational. [m_VIOGroups]: what a name stands for. *)
Inductive gdef := DGroup (id : string) | DIface (id : string) | DInout.
Record state := { inputs : list nfo; outputs : list (nfo * bool * bool); inouts : list (nfo * bool); params : list string; vgroups : list (string * gdef) }.
Definition start : state := {| inputs := []; outputs := []; inouts := []; params := []; vgroups := [] |}.
Definition add_group (st : state) (g : string) (d : gdef) : state :=
  {| inputs := inputs st; outputs := outputs st; inouts := inouts st; params := params st;
     vgroups := if existsb (fun e => String.eqb (fst e) g) (vgroups st) then vgroups st else (vgroups st ++ [(g, d)])%list |}.
Definition add_param (st : state) (b : bool) (s : string) : state :=
  {| inputs := inputs st; outputs := outputs st; inouts := inouts st; params := if b then (params st ++ [s])%list else params st; vgroups := vgroups st |}.
(** A port at the end of its list, with its flags; an inout is also a group with members. *)
Definition add_port (st : state) (d : dir) (comb nocheck : bool) (n : nfo) : state :=
  match d with
  | Input => {| inputs := (inputs st ++ [n])%list; outputs := outputs st; inouts := inouts st; params := params st; vgroups := vgroups st |}
  | Output => {| inputs := inputs st; outputs := (outputs st ++ [(n, comb || nocheck, nocheck)])%list; inouts := inouts st; params := params st; vgroups := vgroups st |}
  | InOut => add_group {| inputs := inputs st; outputs := outputs st; inouts := (inouts st ++ [(n, comb || nocheck)])%list; params := params st; vgroups := vgroups st |} (n_name n) DInout
  end.
(** [getVIODefinition], src/Blueprint.cpp 53-62. *)
Definition found (st : state) (s : string) : bool :=
  existsb (fun n => String.eqb (n_name n) s) (inputs st) || existsb (fun e => String.eqb (n_name (fst (fst e))) s) (outputs st) || existsb (fun e => String.eqb (n_name (fst e)) s) (inouts st).

(** 3340-3413 and 3642-3681. *)
Definition plain (st : state) (d : dir) (comb nocheck : bool) (v : var) : option state :=
  match gatherVarNfo true v with
  | None => None
  | Some (n, expr) =>
      if is_group v then None
      else if match d with Input => negb (n_startup n) && match n_init n with Some _ => true | None => false end | InOut => match n_init n with Some _ => true | None => false end | Output => false end then None
      else if expr then None
      else if found st (n_name n) then None
      else Some (add_param (add_port st d comb nocheck n) (is_param n) (n_name n))
  end.

(** 3463-3490: the members of a group, in a map by name. *)
Fixpoint group_vars (l : list var) (seen : list nfo) : option (list nfo) :=
  match l with
  | [] => Some seen
  | v :: r =>
      match gatherVarNfo false v with
      | None => None
      | Some (n, expr) =>
          if expr then None else if is_param n then None
          else if existsb (fun m => String.eqb (n_name m) (n_name n)) seen then None
          else group_vars r (seen ++ [n])%list
      end
  end.
Fixpoint listed (g : string) (vars : list nfo) (l : list io) (st : state) : option state :=
  match l with
  | [] => Some st
  | i :: r =>
      match find (fun n => String.eqb (n_name n) (io_name i)) vars with
      | None => None
      | Some n => listed g vars r (add_port st (io_dir i) (io_comb i) (io_nocheck i) (with_name n (g ++ "_" ++ n_name n)))
      end
  end.
Fixpoint whole (d : dir) (comb nocheck : bool) (g : string) (vars : list nfo) (st : state) : state :=
  match vars with [] => st | n :: r => whole d comb nocheck g r (add_port st d comb nocheck (with_name n (g ++ "_" ++ n_name n))) end.
(** 3565-3624. *)
Definition iface_nfo (i : io) : nfo :=
  {| n_name := io_name i; n_type := Param; n_init := match io_init i with Some (Some x) => Some x | _ => None end;
     n_uninit := match io_init i with Some None => true | _ => false end; n_startup := match io_init i with Some _ => true | None => false end; n_attr := "" |}.
Fixpoint iface (g : string) (l : list io) (seen : list string) (st : state) : option state :=
  match l with
  | [] => Some st
  | i :: r =>
      if existsb (String.eqb (io_name i)) seen then None
      else match io_dir i, io_init i with
           | Input, Some _ => None
           | _, _ => iface g r (io_name i :: seen) (add_param (add_port st (io_dir i) (io_comb i) (io_nocheck i) (with_name (iface_nfo i) (g ++ "_" ++ io_name i))) true (g ++ "_" ++ io_name i))
           end
  end.

(** Definitions known. [order]: the order in which the map of the members of a group is iterated (an unordered_map). *)
Record defs := { d_groups : string -> option (list var); d_ifaces : string -> option (list io); d_order : list nfo -> list nfo }.
Definition gather_item (D : defs) (st : state) (it : item) : option state :=
  match it with
  | Plain d c k v => plain st d c k v
  | Whole d c k id g =>
      match d_groups D id with
      | None => None
      | Some vs => match group_vars vs [] with None => None | Some ns => Some (whole d c k g (d_order D ns) (add_group st g (DGroup id))) end
      end
  | Listed also id g l =>
      match d_groups D id with
      | None => None
      | Some vs => if also then None else match group_vars vs [] with None => None | Some ns => listed g ns l (add_group st g (DGroup id)) end
      end
  | Iface id g => match d_ifaces D id with None => None | Some l => iface g l [] (add_group st g (DIface id)) end
  end.
Fixpoint gatherIOs (D : defs) (l : list item) (st : state) : option state :=
  match l with [] => Some st | it :: r => match gather_item D st it with Some st' => gatherIOs D r st' | None => None end end.

(** 1119-1149: variables of a group declared in the body. [used]: names taken (ports, instances, memories, variables of the block). *)
Fixpoint group_variables (g : string) (used : list string) (l : list var) (vars : list nfo) : option (list nfo) :=
  match l with
  | [] => Some vars
  | v :: r =>
      match gatherVarNfo false v with
      | None => None
      | Some (n, expr) =>
          if expr then None else if is_param n then None
          else if existsb (String.eqb (g ++ "_" ++ n_name n)) (used ++ map n_name vars) then None
          else group_variables g used r (vars ++ [with_name n (g ++ "_" ++ n_name n)])%list
      end
  end.
Definition declare_group (D : defs) (used : list string) (id g : string) : option (list nfo) :=
  if existsb (String.eqb g) used then None else match d_groups D id with None => None | Some vs => group_variables g used vs [] end.
