(** The signals declared in a module for the variables and outputs of a unit, the signal used when one is named, and what gives its value to a variable that is
    never assigned. Inputs, inouts, wires of instances and of pipelines, indices of state machines are not included. Texts of types are numbers. *)
From Coq Require Import String Ascii List Bool Arith ZArith.
Import ListNotations.
Open Scope string_scope.

(** [e_Access] (src/Blueprint.h 49-58), bit by bit. *)
Record access := mkAcc { rd : bool; wr : bool; bout : bool; bio : bool; iff : bool }.
Definition acc_eqb (a b : access) : bool :=
  Bool.eqb (rd a) (rd b) && Bool.eqb (wr a) (wr b) && Bool.eqb (bout a) (bout b) && Bool.eqb (bio a) (bio b) && Bool.eqb (iff a) (iff b).
Definition NotAccessed := mkAcc false false false false false.
Definition ReadOnly := mkAcc true false false false false.
Definition WriteOnly := mkAcc false true false false false.
Definition ReadAndWrite := mkAcc true true false false false.
Definition BoundToInOut := mkAcc false false false true false.

(** [e_VarUsage] (src/Blueprint.h 62-70). *)
Inductive usage := Undetermined | NotUsed | Const | Temporary | FlipFlop | Bound | Wire.
Definition usage_eqb (a b : usage) : bool :=
  match a, b with
  | Undetermined, Undetermined | NotUsed, NotUsed | Const, Const | Temporary, Temporary | FlipFlop, FlipFlop | Bound, Bound | Wire, Wire => true
  | _, _ => false
  end.

(** [t_var_nfo] (src/Blueprint.h 72-100): name, type, size of the table (0: not a table), usage, access, [init_values], [do_not_initialize], [combinational]
    (outputs). [v_same]: for a variable declared with sameas, the initial value of the variable it is made from (src/Blueprint.cpp 179-201). *)
Record var := mkVar { v_name : string; v_type : nat; v_size : nat; v_use : usage; v_acc : access; v_init : list Z; v_noinit : bool; v_comb : bool; v_same : option Z }.
Definition set_use (v : var) (u : usage) : var := mkVar (v_name v) (v_type v) (v_size v) u (v_acc v) (v_init v) (v_noinit v) (v_comb v) (v_same v).
Definition no_init (v : var) : var := mkVar (v_name v) (v_type v) (v_size v) (v_use v) (v_acc v) (v_init v) true (v_comb v) (v_same v).
Definition scalar (v : var) : bool := Nat.eqb (v_size v) 0.

(** [determineUsage], src/Algorithm.cpp 6138-6196, for a variable. [read]: it is in [global_in_read]. [None]: an internal error is thrown. *)
Definition usage_of (read : bool) (v : var) : option usage :=
  match v_use v with
  | Wire => Some Wire
  | Bound => Some Bound
  | Undetermined =>
      let a := v_acc v in
      if acc_eqb a ReadOnly then Some Const
      else if acc_eqb a WriteOnly then Some (if scalar v then Temporary else FlipFlop)
      else if acc_eqb a (mkAcc true false true false false) || acc_eqb a (mkAcc true false true false true) then Some Bound
      else if acc_eqb a (mkAcc false false true false false) || acc_eqb a (mkAcc false false true false true) then Some Bound
      else if iff a then Some FlipFlop
      else if acc_eqb a ReadAndWrite then Some (if scalar v && negb read then Temporary else FlipFlop)
      else if acc_eqb a NotAccessed then Some NotUsed
      else if acc_eqb a BoundToInOut then Some Bound
      else None
  | _ => None
  end.
(** The same for an output, 6198-6210. *)
Definition out_usage (v : var) : usage :=
  if acc_eqb (v_acc v) (mkAcc true false true false false) then Bound
  else if acc_eqb (v_acc v) (mkAcc false false true false false) then Bound
  else FlipFlop.

(** What the first pass tells on a name: [stable_in_cycle], and whether the register is used ([e_Q]) when [ff_usage] has the name. *)
Record seen := mkSeen { s_stable : option bool; s_q : option bool }.
(** Updates after the first pass, 9581-9622, for a variable: constants that cannot be macros, then registers, then temporaries. *)
Definition promote (s : seen) (v : var) : var :=
  if usage_eqb (v_use v) Const && scalar v && negb (match s_stable s with Some b => b | None => true end) then set_use v Temporary else v.
Definition demote_flip (v : var) : var :=
  if usage_eqb (v_use v) FlipFlop then
    if acc_eqb (v_acc v) ReadOnly then set_use v Const else if scalar v then set_use v Temporary else v
  else v.
(** [couldBeADefine], 1545-1550. *)
Definition demote_temp (s : seen) (v : var) : var :=
  if usage_eqb (v_use v) Temporary && match s_stable s with Some b => b | None => false end && scalar v then no_init (set_use v Const) else v.
Definition refine (s : seen) (v : var) : var :=
  let v := promote s v in
  match s_q s with
  | None => v
  | Some q => demote_temp s (if q then v else demote_flip v)
  end.
(** The same for an output, 9624-9643. [fsm]: the unit has a state machine. *)
Definition refine_out (fsm : bool) (s : seen) (v : var) : var :=
  match s_q s with
  | Some false => if (negb fsm || v_comb v) && usage_eqb (v_use v) FlipFlop then set_use v Temporary else v
  | _ => v
  end.
(** Both passes. *)
Definition settle (read : bool) (s : seen) (v : var) : option var := option_map (fun u => refine s (set_use v u)) (usage_of read v).
Definition settle_out (fsm : bool) (s : seen) (v : var) : var := refine_out fsm s (set_use v (out_usage v)).

(** [isADefine], 1553-1556. *)
Definition is_define (v : var) : bool := scalar v && usage_eqb (v_use v) Const && negb (acc_eqb (v_acc v) ReadOnly).

(** Names of signals: [FF_D], [FF_Q], [FF_TMP], [FF_CST], [WIRE] (src/Algorithm.h 57-62) with the prefix of the module, "_" (src/Algorithm.cpp 10013-10028). *)
Definition d_of (v : var) : string := "_d_" ++ v_name v.
Definition q_of (v : var) : string := "_q_" ++ v_name v.
Definition t_of (v : var) : string := "_t_" ++ v_name v.
Definition c_of (v : var) : string := "_c_" ++ v_name v.
Definition w_of (v : var) : string := "_w_" ++ v_name v.

(** [rewriteIdentifier], 1587-1671. [ffd]: the side asked is [FF_D]; [dep]: the variable is assigned before. [Elsewhere]: the signal of what is bound. *)
Inductive signal := Sig (s : string) | Macro (s : string) | Elsewhere | Internal.
Definition flip_signal (ffd dep : bool) (v : var) : signal := Sig (if ffd || dep then d_of v else q_of v).
Definition out_signal (ffd dep : bool) (v : var) : signal :=
  match v_use v with
  | Temporary => Sig (t_of v)
  | FlipFlop => flip_signal ffd dep v
  | Bound => Elsewhere
  | _ => Internal
  end.
Definition var_signal (ffd dep : bool) (v : var) : signal :=
  match v_use v with
  | Bound => Elsewhere
  | Temporary => Sig (t_of v)
  | Const => if is_define v then Macro (c_of v) else Sig (c_of v)
  | Wire => Sig (w_of v)
  | _ => flip_signal ffd dep v
  end.

(** Declarations: register or wire, name, type, size. *)
Record decl := mkDecl { k_reg : bool; k_name : string; k_type : nat; k_size : nat }.
Definition declare (reg : bool) (v : var) (s : string) : decl := mkDecl reg s (v_type v) (v_size v).
(** [writeConstDeclarations], 7753-7786. *)
Definition const_decl (v : var) : list decl :=
  if negb (usage_eqb (v_use v) Const) then [] else if negb (acc_eqb (v_acc v) ReadOnly) then [] else [declare false v (c_of v)].
(** [writeTempDeclarations], 7790-7812, the same for outputs, which are not tables. *)
Definition temp_decl (v : var) : list decl := if negb (usage_eqb (v_use v) Temporary) then [] else [declare true v (t_of v)].
(** [writeWireDeclarations], 7816-7842. [split]: [g_SplitInouts]. *)
Definition wire_decl (split : bool) (v : var) : list decl :=
  if (usage_eqb (v_use v) Bound && acc_eqb (v_acc v) BoundToInOut) || usage_eqb (v_use v) Wire then
    if acc_eqb (v_acc v) NotAccessed then []
    else if acc_eqb (v_acc v) BoundToInOut && split then map (fun x => declare false v (w_of v ++ x)) ["_oe"; "_o"; "_i"]
    else [declare false v (w_of v)]
  else [].
(** [writeFlipFlopDeclarations], 7846-7887, the same for outputs. *)
Definition flip_decl (v : var) : list decl := if negb (usage_eqb (v_use v) FlipFlop) then [] else [declare true v (d_of v); declare true v (q_of v)].
(** All of them, in the order of [writeAsModule], 10013-10028. *)
Definition decls (split : bool) (vars outs : list var) : list decl :=
  (flat_map temp_decl vars ++ flat_map temp_decl outs ++ flat_map const_decl vars ++ flat_map (wire_decl split) vars ++ flat_map flip_decl vars ++ flat_map flip_decl outs)%list.

(** Assignment of the output of the module, 10029-10048. [None]: the output is bound, or an internal error is thrown. *)
Definition out_assign (v : var) : option string :=
  match v_use v with
  | FlipFlop => Some (if v_comb v then d_of v else q_of v)
  | Temporary => Some (t_of v)
  | _ => None
  end.
(** In the first pass these assignments are readings of the outputs, which then are all registers, 10036-10040; the sides read are kept, 10470-10483. *)
Definition out_seen (v : var) (s : seen) : seen :=
  if usage_eqb (out_usage v) FlipFlop then
    if v_comb v then mkSeen (s_stable s) (Some (match s_q s with Some q => q | None => false end)) else mkSeen (s_stable s) (Some true)
  else s.

(** [varInitValue], src/Blueprint.cpp 176-210, for what is not a table. [None]: assertion, or no text. *)
Definition init_value (v : var) : option Z := match v_same v with Some b => Some b | None => hd_error (v_init v) end.
(** [assign] written with the declaration of a constant, src/Algorithm.cpp 7758-7784: the value of entry [i]. [zero]: [reg_init_zero]. [None]: not driven. *)
Definition const_entry (zero : bool) (v : var) (i : nat) : option Z :=
  if scalar v then if v_noinit v then Some 0%Z else init_value v
  else if v_noinit v then if zero then if Nat.ltb i (length (v_init v)) then Some 0%Z else None else None
  else nth_error (v_init v) i.
(** [e_FFUsage] (src/Algorithm.h 154-158) and [updateFFUsage] for the reading of a temporary, 4974-4990 and 1634. *)
Record ffu := mkFfu { f_d : bool; f_q : bool; f_latch : bool; f_nolatch : bool }.
Definition read_temp (f : ffu) : ffu := mkFfu true (f_q f || f_latch f) (f_latch f) (f_nolatch f).
(** What [ff_usage] has after [n] readings at the first level of the always_before block (or the always block of a unit), with [clearNoLatchFFUsage], 4994-4999. *)
Definition pre_usage (n : nat) : option ffu :=
  match n with
  | 0 => None
  | _ => let f := Nat.iter n read_temp (mkFfu false false false false) in Some (mkFfu (f_d f) (f_q f) (f_latch f) false)
  end.
(** [writeCombinationalAlwaysPre], 8274-8287: the value a temporary has at the start of the cycle. [None]: nothing is written. *)
Definition temp_start (f : option ffu) (v : var) : option Z :=
  let z := match v_init v with [] => 0%Z | z :: _ => z end in
  match f with
  | Some f => if f_d f && negb (f_q f) && negb (f_latch f) && negb (f_nolatch f) then None else Some z
  | None => Some z
  end.
(** The value of entry [i] of a variable never assigned, which has [n] readings in the always_before block. *)
Definition constant (zero : bool) (n : nat) (v : var) (i : nat) : option Z :=
  match v_use v with
  | Const => const_entry zero v i
  | Temporary => temp_start (pre_usage n) v
  | _ => None
  end.
(** The value that a register takes when initialized (C35 says when), [writeVarFlipFlopUpdate], 7970-7990, for entry [i]; tables are never made with sameas (731). *)
Definition reset_entry (v : var) (i : nat) : option Z := if scalar v then init_value v else nth_error (v_init v) i.
(** The value given in the declaration of a register initialized when the device is configured, 7851-7854. *)
Definition startup_value (v : var) : option Z := hd_error (v_init v).
