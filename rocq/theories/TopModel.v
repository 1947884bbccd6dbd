(** The top module of frameworks: pins in its signature, wires of unused bits, connection of the ports of the unit exported.
    src/SiliceCompiler.cpp 551-639 (addTopModulePort, verilogTopModuleSignature, verilogMainGlue), 665-702 (writeBody); src/LuaPreProcessor.cpp 300-360 (groups of pins), 872-892. *)
From Coq Require Import String Ascii List Bool Arith NArith ZArith.
From Verif Require Import LiteralModel PinModel.
Import ListNotations.
Local Open Scope string_scope.

(** Entries of a group, "pin.x = { ... }", [lua_pin_newindex] 316-355: "pin.p[b]", "pin.p" and numbers, of which only 0 is accepted and skips a bit. *)
Inductive entry := Bit (pin : string) (b : nat) | All (pin : string) | Number (n : Z).
Inductive decl := DPin (name : string) (width : Z) | DGroup (name : string) (l : list entry).
(** [insert] keeps the first, src/LuaPreProcessor.h 96-98. *)
Definition add_first {V} (m : string -> option V) (k : string) (v : V) : string -> option V :=
  fun s => match m s with Some x => Some x | None => if String.eqb k s then Some v else None end.
(** An entry: [None] is an error of Lua, on pins not declared before (277-281) and on numbers (340-347). A bit outside of the pin is not
    in the table of 284-286: its value is nil, which the iteration of 323 does not meet. The name of a pin has no ':', so that 326-331 splits
    the text "pin:bit" where 285 joins it. *)
Definition entry_refs (f : framework) (e : entry) : option (list pinref) :=
  match e with
  | Bit p b => match pins f p with Some w => Some (if (Z.of_nat b <? w)%Z then [(p, Z.of_nat b)] else []) | None => None end
  | All p => match pins f p with Some _ => Some [(p, (-1)%Z)] | None => None end
  | Number n => if (n =? 0)%Z then Some [("", (-1)%Z)] else None
  end.
Fixpoint group_refs (f : framework) (l : list entry) : option (list pinref) :=
  match l with [] => Some [] | e :: r => match entry_refs f e, group_refs f r with Some x, Some y => Some (x ++ y)%list | _, _ => None end end.
(** Pins and groups, in the order of the framework. *)
Fixpoint declare (f : framework) (l : list decl) : option framework :=
  match l with
  | [] => Some f
  | DPin n w :: r => declare {| pins := add_first (pins f) n w; groups := groups f |} r
  | DGroup n es :: r => match group_refs f es with Some rs => declare {| pins := pins f; groups := add_first (groups f) n rs |} r | None => None end
  end.
Definition no_pins : framework := {| pins := fun _ => None; groups := fun _ => None |}.

(** 609-637: an element of the concatenation connected to a port. *)
Inductive element := EUnused (port : string) (k : nat) | EWhole (pin : string) | ESelect (pin : string) (b : Z).
Fixpoint elements (port : string) (k : nat) (l : list pinref) : list element :=
  match l with
  | [] => []
  | (p, b) :: r => (if String.eqb p "" then EUnused port k else if (b =? -1)%Z then EWhole p else ESelect p b) :: elements port (S k) r
  end.
(** 683-694: "wire __unused_port_k;". *)
Fixpoint unused (port : string) (k : nat) (l : list pinref) : list string :=
  match l with [] => [] | (p, _) :: r => ((if String.eqb p "" then [("__unused_" ++ port ++ "_" ++ to_string (N.of_nat k))%string] else []) ++ unused port (S k) r)%list end.
Definition element_net (e : element) : string := match e with EUnused port k => "__unused_" ++ port ++ "_" ++ to_string (N.of_nat k) | EWhole p | ESelect p _ => p end.
(** 589-605: direction, range (for widths above 1), name. *)
Definition signature_of (f : framework) (e : string * ptype) : option (ptype * option Z * string) :=
  match pins f (fst e) with Some w => Some (snd e, if (1 <? w)%Z then Some (w - 1)%Z else None, fst e) | None => None end.
Fixpoint signatures (f : framework) (u : used) : option (list (ptype * option Z * string)) :=
  match u with [] => Some [] | e :: r => match signature_of f e, signatures f r with Some x, Some y => Some (x :: y) | _, _ => None end end.
Definition glue_prefix (t : ptype) : string := match t with Input => ".in_" | Output => ".out_" | InOut => ".inout_" end.
Record top := { t_signature : list (ptype * option Z * string); t_wires : list string; t_glue : list (string * list element) }.
(** The maps of the code are ordered by name, which Verilog does not see: names are given in the order of the ports. *)
Definition make_top (f : framework) (ps : list (string * ptype)) : option top :=
  match add_ports f ps [] with
  | None => None
  | Some u =>
      match signatures f u with
      | None => None
      | Some s =>
          let refs p := match pinsUsedByIOPort f p with Some l => l | None => [] end in
          Some {| t_signature := s; t_wires := flat_map (fun e => unused (fst e) 0 (refs (fst e))) ps;
                  t_glue := map (fun e => (glue_prefix (snd e) ++ fst e, elements (fst e) 0 (refs (fst e)))) ps |}
      end
  end.

(** Verilog: bits of a concatenation, the first element highest. A name of the signature without a range has one bit. *)
Definition net_width (t : top) (n : string) : nat :=
  match find (fun x => String.eqb (snd x) n) (t_signature t) with Some (_, Some h, _) => Z.to_nat (h + 1) | _ => 1 end.
Definition element_bits (t : top) (e : element) : list (string * nat) :=
  match e with
  | EUnused _ _ => [(element_net e, 0%nat)]
  | EWhole p => rev (map (fun i => (p, i)) (seq 0 (net_width t p)))
  | ESelect p b => [(p, Z.to_nat b)]
  end.
(** The bit of the top module connected to bit [k] of a port of [width] bits. Bits above the concatenation have none. *)
Definition port_bit (t : top) (cell : string) (width k : nat) : option (string * nat) :=
  match find (fun x => String.eqb (fst x) cell) (t_glue t) with
  | Some (_, es) => if (k <? width)%nat then nth_error (rev (flat_map (element_bits t) es)) k else None
  | None => None
  end.
