(** Clock, reset, run and done in a hierarchy of units: the ports of each module, the pins connected by the instances, the signals used by
    the text of each module, and the value of reset in each module. Pins of the data inputs, outputs and inouts are in PortModel.v. *)
From Coq Require Import String List Bool ZArith.
Import ListNotations.
From Verif Require Import RegModel.
Open Scope string_scope.

Definition mem (x : string) (l : list string) : bool := existsb (String.eqb x) l.

(** * Units *)
(** What [hasNoFSM] looks at in a block: has instructions, has an end action, state_id, is_state (src/Algorithm.h 474-560). *)
Record block := { k_instr : bool; k_end : bool; k_id : Z; k_state : bool }.
(** A variable or output: name, usage e_FlipFlop or not, initializer (RegModel.v). *)
Record reg := { g_name : string; g_ff : bool; g_nfo : vnfo }.
(** A unit. [u_front], [u_more]: m_Blocks. [u_auto]: m_AutoRun. [u_reset], [u_clock]: m_Reset, m_Clock (src/Algorithm.h 123-126).
    [u_pipes]: the stages of pipelines having a state machine (fsmIsEmpty, src/Algorithm.cpp 4431-4437, is false).
    [u_checks]: the unit has an assert, assume or restrict. [u_reads]: identifiers read by its code. [u_isdone]: instances under isdone. *)
Record udesc := { u_front : block; u_more : list block; u_auto : bool; u_ins : list string; u_vars : list reg; u_outs : list reg;
  u_reset : string; u_clock : string; u_pipes : list string; u_checks : bool; u_reads : list string; u_isdone : list string }.
(** An instance in a unit: name, [!ID] and [@ID] if given, bindings of inputs (pin, identifier) and of outputs (output, identifier). *)
Record idesc := { i_name : string; i_reset : option string; i_clock : option string;
  i_ins : list (string * string); i_outs : list (string * string) }.
(** A blueprint: a unit with its instances, an imported Verilog module with its outputs, a RISC-V processor with its outputs. *)
Inductive bp :=
| Unit (u : udesc) (subs : list (idesc * bp))
| Import (outs : list string)
| Riscv (outs : list string).

(** [hasNoFSM], src/Algorithm.cpp 4612-4629. *)
Definition no_fsm (u : udesc) : bool :=
  if k_instr (u_front u) then false
  else if k_end (u_front u) then false
  else forallb (fun b => if ((k_id b =? -1)%Z && k_state b)%bool then true else negb (1 <? k_id b)%Z) (u_front u :: u_more u).
(** [isNotCallable], src/Algorithm.cpp 4693-4702. *)
Definition not_callable (u : udesc) : bool := if u_auto u then true else no_fsm u.
(** The algorithm as RegModel.v sees it. *)
Definition alg_of (u : udesc) : alg := {| a_fsm := negb (no_fsm u); a_auto := u_auto u |}.
(** The test on variables and outputs of [requiresReset], 4669-4680. *)
Definition wants_reset (g : reg) : bool := g_ff g && negb (v_noinit (g_nfo g)).
(** [requiresReset]: src/Algorithm.cpp 4663-4690, src/Module.h 193, src/RISCVSynthesizer.h 120. *)
Fixpoint requires_reset (b : bp) : bool :=
  match b with
  | Unit u subs => negb (no_fsm u) || existsb wants_reset (u_vars u) || existsb wants_reset (u_outs u)
                   || existsb (fun s => requires_reset (snd s)) subs
  | Import _ => false
  | Riscv _ => true
  end.
(** [requiresClock]: src/Algorithm.h 1297, src/Module.h 195, src/RISCVSynthesizer.h 122. *)
Definition requires_clock (b : bp) : bool := match b with Import _ => false | _ => true end.
(** outputs() *)
Definition outputs (b : bp) : list string := match b with Unit u _ => map g_name (u_outs u) | Import o => o | Riscv o => o end.

Definition when {A} (c : bool) (l : list A) : list A := if c then l else [].

(** * Ports for control of the module written for a unit, src/Algorithm.cpp 9905-9944 ([top]: m_TopMost) *)
Definition unit_ports (top : bool) (u : udesc) (subs : list (idesc * bp)) : list string :=
  when (negb (not_callable u) || top) ["in_run"] ++ when (negb (no_fsm u) || top) ["out_done"]
  ++ when (requires_reset (Unit u subs) || top) ["reset"] ++ ["out_clock"; "clock"].
(** A RISC-V processor is a unit made of an always block, written as topmost by another run of the compiler
    (src/RISCVSynthesizer.cpp 485-502, frameworks/libraries/riscv/ice-v/riscv-soc.si). *)
Definition riscv_ports : list string := ["in_run"; "out_done"; "reset"; "out_clock"; "clock"].

(** * Names in the text of a module *)
(** Wires of the outputs of instances, 9985-10002, "done" included, and registers "run" of instances, 7925-7930. *)
Definition wire_of (i : idesc) (o : string) : string := "_w_" ++ i_name i ++ "_" ++ o.
Definition run_of (i : idesc) : string := "_" ++ i_name i ++ "_run".
(** m_VIOBoundToBlueprintOutputs for bindings without part select, determineBlueprintBoundVIO, 6302-6316. *)
Fixpoint bound (subs : list (idesc * bp)) (x : string) : option string :=
  match subs with
  | [] => None
  | (i, _) :: r => match find (fun p => String.eqb (snd p) x) (i_outs i) with Some p => Some (wire_of i (fst p)) | None => bound r x end
  end.
(** [rewriteIdentifier], 1557-1674, reads of scalars on the Q side. [None]: reportError. Constants (e_Const) and tracked expressions (e_Wire) are left out. *)
Definition read_reg (g : reg) : string := (if g_ff g then "_q_" else "_t_") ++ g_name g.
Definition rewrite (u : udesc) (subs : list (idesc * bp)) (x : string) : option string :=
  if String.eqb x "reset" || String.eqb x "clock" then Some x
  else if String.eqb x (u_reset u) then bound subs x
  else if String.eqb x (u_clock u) then bound subs x
  else if mem x (u_ins u) then Some ("in_" ++ x)
  else match bound subs x with
       | Some w => Some w
       | None => option_map read_reg (find (fun g => String.eqb (g_name g) x) (u_vars u ++ u_outs u))
       end.
(** The reset in the updates of registers, 8007-8018. *)
Definition reset_text (u : udesc) (subs : list (idesc * bp)) : option string :=
  if String.eqb (u_reset u) "reset" then Some "reset" else bound subs (u_reset u).
Definition clock_text (u : udesc) (subs : list (idesc * bp)) : option string :=
  if String.eqb (u_clock u) "clock" then Some "clock" else bound subs (u_clock u).
(** Reset and clock given to an instance: those of the unit unless specified, gatherDeclarationInstance, 1340-1347. *)
Definition inst_reset (u : udesc) (i : idesc) : string := match i_reset i with Some r => r | None => u_reset u end.
Definition inst_clock (u : udesc) (i : idesc) : string := match i_clock i with Some c => c | None => u_clock u end.

(** * Pins connected by an instance for control, 10216-10246: pin and text of the connection, [None] if not rewritten *)
Definition connects (u : udesc) (subs : list (idesc * bp)) (i : idesc) (b : bp) : list (string * option string) :=
  match b with
  | Unit v _ => when (negb (no_fsm v)) [("out_done", Some (wire_of i "done"))] ++ when (negb (not_callable v)) [("in_run", Some (run_of i))]
  | _ => []
  end
  ++ when (requires_reset b) [("reset", rewrite u subs (inst_reset u i))]
  ++ when (requires_clock b) [("clock", rewrite u subs (inst_clock u i)); ("out_clock", Some "")].

(** * Signals used in the text of the module *)
(** In the updates of registers: writeVarFlipFlopUpdate 7938-7976, writeFlipFlopUpdates 8019-8066. Texts [None]: errors. *)
Definition uses_reg (u : udesc) (subs : list (idesc * bp)) (g : reg) : list (option string) :=
  if g_ff g then
    match reg_rhs (alg_of u) (g_nfo g) with
    | Some (Mux OnReset _) => [reset_text u subs]
    | Some (Mux OnResetOrNotRun _) => [reset_text u subs; Some "in_run"]
    | _ => []
    end
  else [].
Definition uses_edges (u : udesc) (subs : list (idesc * bp)) : list (option string) :=
  clock_text u subs :: flat_map (uses_reg u subs) (u_vars u ++ u_outs u)
  ++ when (negb (no_fsm u)) (reset_text u subs :: when (negb (u_auto u)) [Some "in_run"] ++ map (fun _ => reset_text u subs) (u_pipes u)).
(** In asserts, assumes and restricts: the name of the reset as given in the source, 7629, 7649, 7669. *)
Definition uses_checks (u : udesc) : list (option string) := when (u_checks u) [Some (u_reset u)].
(** With FORMAL defined, 10490-10501. *)
Definition uses_formal (u : udesc) : list (option string) :=
  Some "reset" :: when (negb (no_fsm u)) (when (negb (not_callable u)) [Some "in_run"] ++ [Some "out_done"]).
(** In the code: identifiers read, isdone (1738-1752). The instance is an algorithm, else an error is reported. *)
Definition isdone_text (subs : list (idesc * bp)) (n : string) : option string :=
  match find (fun s => String.eqb (i_name (fst s)) n) subs with
  | Some (i, Unit _ _) => Some (wire_of i "done")
  | _ => None
  end.
Definition uses_code (u : udesc) (subs : list (idesc * bp)) : list (option string) :=
  map (rewrite u subs) (u_reads u) ++ map (isdone_text subs) (u_isdone u).
(** In the instances: connections of control, and of the inputs bound to identifiers, 10118-10130. *)
Definition uses_insts (u : udesc) (subs : list (idesc * bp)) : list (option string) :=
  flat_map (fun s => (map (fun p => rewrite u subs (snd p)) (i_ins (fst s))
                     ++ map snd (filter (fun p => negb (String.eqb (fst p) "out_clock")) (connects u subs (fst s) (snd s))))%list) subs.
Definition uses (formal : bool) (u : udesc) (subs : list (idesc * bp)) : list (option string) :=
  uses_edges u subs ++ uses_checks u ++ when formal (uses_formal u) ++ uses_code u subs ++ uses_insts u subs.

(** * Names declared by the module: ports 9890-9947, wires 9985-10002, registers 7845-7870, temporaries 7793-7818, run 7925-7930 *)
Definition decl_reg (g : reg) : list string := if g_ff g then ["_d_" ++ g_name g; "_q_" ++ g_name g] else ["_t_" ++ g_name g].
Definition decl_inst (s : idesc * bp) : list string :=
  map (wire_of (fst s)) (outputs (snd s))
  ++ match snd s with
     | Unit v _ => when (negb (no_fsm v)) [wire_of (fst s) "done"] ++ when (negb (not_callable v)) [run_of (fst s)]
     | _ => []
     end.
Definition declared (top : bool) (u : udesc) (subs : list (idesc * bp)) : list string :=
  map (fun x => "in_" ++ x) (u_ins u) ++ unit_ports top u subs ++ flat_map decl_reg (u_vars u ++ u_outs u) ++ flat_map decl_inst subs.

(** The bindings of outputs name outputs of the blueprint, as checked by checkBlueprintsBindings, 110-125. *)
Definition binds_outputs (subs : list (idesc * bp)) : Prop :=
  forall i b o x, In (i, b) subs -> In (o, x) (i_outs i) -> In o (outputs b).

(** * The circuit: what the reset is in each module *)
(** Value of a signal of one bit, [None]: not driven. [w path x]: the signal [x] of the module of the instance at [path], in one cycle. *)
Definition sig := option bool.
Definition signals := list string -> string -> sig.
Definition sub_at (subs : list (idesc * bp)) (n : string) : option (idesc * bp) := find (fun s => String.eqb (i_name (fst s)) n) subs.
(** The text [x] in a module whose port reset, if there is one, has the value [r]. *)
Definition text_val (w : signals) (here : list string) (has : bool) (r : sig) (x : string) : sig :=
  if String.eqb x "reset" then (if has then r else None) else w here x.
(** Value of the port reset of the instance at [path] under [b], the module of [b] being at [here]. *)
Fixpoint port_at (w : signals) (here : list string) (top : bool) (b : bp) (r : sig) (path : list string) : sig :=
  match b with
  | Unit u subs =>
      let has := requires_reset b || top in
      match path with
      | [] => if has then r else None
      | n :: rest =>
          match sub_at subs n with
          | Some (i, c) =>
              let rc := if requires_reset c
                        then match rewrite u subs (inst_reset u i) with Some x => text_val w here has r x | None => None end
                        else None in
              port_at w (here ++ [n]) false c rc rest
          | None => None
          end
      end
  | Import _ => None
  | Riscv _ => match path with [] => r | _ => None end
  end.
(** The blueprint of the instance at [path]. *)
Fixpoint at_path (b : bp) (path : list string) : option bp :=
  match path with
  | [] => Some b
  | n :: rest => match b with Unit _ subs => match sub_at subs n with Some (_, c) => at_path c rest | None => None end | _ => None end
  end.
(** The condition on which the registers of the module are initialized. *)
Definition own_reset (w : signals) (here : list string) (u : udesc) (subs : list (idesc * bp)) (port : sig) : sig :=
  match reset_text u subs with Some x => if String.eqb x "reset" then port else w here x | None => None end.

(** A stage of a pipeline: index and full after the clock edge, 8057-8075. [term]: termination state of the stage. *)
Definition stage_edge (fsm : bool) (reset : bool) (term idx : nat) (full : bool) : nat * bool :=
  if fsm then (if reset then (term, false) else (idx, full)) else (idx, full).
