(** Names of the modules written for a design, and the modules each instance refers to.
    src/Algorithm.cpp 1265-1309 (instantiateBlueprint), 1313-1384 (gatherDeclarationInstance), 9427-9430 (memoryModuleName), 9535-9680 and 9833-9885 (writing), 10084-10092 and 10318 (instantiation);
    src/Algorithm.h 1307, src/Module.h 197, src/RISCVSynthesizer.h 89-124 (moduleName); src/SiliceCompiler.cpp 105-215 (gatherBody), 642-815, 845-915 (writing). *)
From Coq Require Import String Ascii List Bool.
Import ListNotations.
Local Open Scope string_scope.

(** A unit once parsed for one instance: every instance of a unit that is not static has a parsed unit of its own (1277-1308).
    [u_body] stands for the text of the module but for what it instantiates, which depends on the parameters of the instance. *)
Inductive unit := Unit (u_name : string) (u_body : nat) (u_mems : list string) (u_insts : list (string * bp))
with bp := Static (n : string) | Own (u : unit).
Definition u_name (u : unit) := let (n, _, _, _) := u in n.
Definition u_body (u : unit) := let (_, b, _, _) := u in b.
Definition u_mems (u : unit) := let (_, _, m, _) := u in m.
Definition u_insts (u : unit) := let (_, _, _, i) := u in i.

(** The instantiation context, src/Blueprint.h: [top_name] and [instance_name]. *)
Record ictx := { top_name : string; instance_name : string }.
(** 9828, 10089. *)
Definition here (c : ictx) : string := if String.eqb (instance_name c) "" then top_name c else instance_name c.
Definition child (c : ictx) (i : string) : ictx := {| top_name := top_name c; instance_name := here c ++ "_" ++ i |}.

(** A module of the output: its name, and what it contains. [refs]: cells with the name of their module. *)
Inductive def := DUnit (body : nat) (refs : list (string * string)) | DMem (mem : string) | DOther.
Definition module := (string * def)%type.

(** Static blueprints, src/SiliceCompiler.h 64. [mods]: names of the modules in the Verilog file. *)
Inductive static := SVerilog (mods : list string) | SRiscv (mods : list string) | SUnit (u : unit).
Definition statics := list (string * static).
Fixpoint find (m : statics) (n : string) : option static :=
  match m with [] => None | (k, s) :: r => if String.eqb k n then Some s else find r n end.
(** [std::unordered_map::insert]: the first one is kept. *)
Definition insert (m : statics) (n : string) (s : static) : statics := match find m n with Some _ => m | None => (m ++ [(n, s)])%list end.

(** [moduleName] of the three kinds of blueprints. *)
Definition module_name (bpname inst : string) : string := "M_" ++ bpname ++ (if String.eqb inst "" then "" else "_" ++ inst).
Definition static_module (n : string) (s : static) : string :=
  match s with SVerilog _ => n | SRiscv _ => "M_" ++ n | SUnit _ => module_name n "" end.
Definition bp_name (b : bp) : string := match b with Static n => n | Own u => u_name u end.
(** 10084-10092: whether the blueprint is static is asked again when writing. *)
Definition ref_of (m : statics) (c : ictx) (e : string * bp) : string * string :=
  let (i, b) := e in
  (i, match find m (bp_name b) with None => module_name (bp_name b) (here c ++ "_" ++ i) | Some s => static_module (bp_name b) s end).
(** 9427-9430, 10318. *)
Definition mem_module (c : ictx) (u : unit) (x : string) : string := "M_" ++ u_name u ++ "_" ++ instance_name c ++ "_mem_" ++ x.
Definition mem_ref (c : ictx) (u : unit) (x : string) : string * string := ("__mem__" ++ x, mem_module c u x).
(** 9879-9884. *)
Definition header (c : ictx) (u : unit) : string :=
  if String.eqb (instance_name c) "" then top_name c else "M_" ++ u_name u ++ "_" ++ instance_name c.

(** [writeAsModule], 9855: the modules of the memories, then the module. *)
Definition write_module (m : statics) (c : ictx) (u : unit) : list module :=
  (map (fun x => (mem_module c u x, DMem x)) (u_mems u)
   ++ [(header c u, DUnit (u_body u) (map (ref_of m c) (u_insts u) ++ map (mem_ref c u) (u_mems u)))])%list.
(** [writeAsModule], 9535, and [writeInstanciatedBlueprints], 9833: instances first. In the first pass the module is written to a stream that is not open, 9577-9578. *)
Fixpoint write_as_module (first : bool) (m : statics) (c : ictx) (u : unit) : list module :=
  match u with
  | Unit _ _ _ l =>
      (flat_map (fun e : string * bp => let (i, b) := e in match b with Static _ => [] | Own v => write_as_module first m (child c i) v end) l
       ++ (if first then [] else write_module m c u))%list
  end.
(** The two calls of [writeUnit] for each unit written from the top, 727-728, 799-801, 903-905. *)
Definition write_unit (m : statics) (t : string) (u : unit) : list module :=
  let c := {| top_name := t; instance_name := "" |} in (write_as_module true m c u ++ write_as_module false m c u)%list.

(** What is found at top level, 105-215. [path]: the file found. *)
Inductive item := TImport (path name : string) (mods : list string) | TAppend (mods : list string) | TUnit (u : unit) | TRiscv (name : string) (mods : list string).
Record state := { s_map : statics; s_order : list string; s_appends : list string }.
Definition gather_one (s : state) (t : item) : option state :=
  match t with
  | TImport path n mods =>
      (* 179: the name compared is that of the file *)
      if match find (s_map s) path with Some _ => true | None => false end then None
      else Some {| s_map := insert (s_map s) n (SVerilog mods); s_order := s_order s ++ [n]; s_appends := s_appends s |}
  | TAppend mods => Some {| s_map := s_map s; s_order := s_order s; s_appends := s_appends s ++ mods |}
  | TUnit u => Some {| s_map := insert (s_map s) (u_name u) (SUnit u); s_order := s_order s ++ [u_name u]; s_appends := s_appends s |}
  | TRiscv n mods => Some {| s_map := insert (s_map s) n (SRiscv mods); s_order := s_order s ++ [n]; s_appends := s_appends s |}
  end%list.
Fixpoint gather (s : state) (l : list item) : option state :=
  match l with [] => Some s | t :: r => match gather_one s t with Some s' => gather s' r | None => None end end.
Definition start : state := {| s_map := []; s_order := []; s_appends := [] |}.

(** 708-730. *)
Definition write_static (m : statics) (n : string) : list module :=
  match find m n with
  | Some (SVerilog mods) | Some (SRiscv mods) => map (fun x => (x, DOther)) mods
  | Some (SUnit u) => write_unit m ("M_" ++ u_name u) u
  | None => []
  end.

(** A design: modules of the framework, top level, the unit exported and the formal units, which are parsed again (786-803). *)
Record design := { d_framework : list string; d_items : list item; d_top : unit; d_formals : list unit }.
Definition others_of (l : list string) : list module := map (fun x => (x, DOther)) l.
(** [run], 845-915, with [writeBody], 642. [None]: an error. *)
Definition output (d : design) : option (list module) :=
  match gather start (d_items d) with
  | None => None
  | Some s =>
      Some (others_of (d_framework d) ++ others_of (s_appends s) ++ flat_map (write_static (s_map s)) (s_order s)
            ++ write_unit (s_map s) ("M_" ++ u_name (d_top d)) (d_top d)
            ++ flat_map (fun u => write_unit (s_map s) ("formal_" ++ u_name u ++ "$") u) (d_formals d))%list
  end.
