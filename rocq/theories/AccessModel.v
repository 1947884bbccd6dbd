(** Accesses: the type and width the compiler gives to them, and what is written in Verilog for them. src/Algorithm.cpp 6864-7046 (types), 7343-7543
    (writing), 5137-5241 (members of groups, interfaces and bitfields). *)
From Coq Require Import String List Bool ZArith.
From Verif Require Import BitfieldModel.
Import ListNotations.
Local Open Scope Z_scope.

(** [t_type_nfo], src/TypesAndConsts.h: base type and width. [Param] is [Parameterized]: a type known for each instance only. *)
Inductive base := UInt | Int | Param.
Record typ := { t_base : base; t_width : Z }.

(** An instance of a unit: prefix of its signals, types and sizes of its inputs and outputs, inputs that are bound. *)
Record instance := { i_prefix : string; i_in : string -> option (typ * Z); i_out : string -> option (typ * Z); i_bound : string -> bool }.

(** What the unit declares. [h_tr]: [translateVIOName] in the block of the access; [h_vios]: type and table size (0 when not a table) of variables, clock and
    reset, then inputs, outputs and inouts, searched in this order (6870-6882, src/Blueprint.cpp determineVIOTypeWidthAndTableSize); [h_groups]: members of
    groups, interfaces, memories and inouts; [h_bound]: inouts bound to an instance ([m_VIOToBlueprintInOutsBound]); [h_inout]: inouts of the unit;
    [h_actual]: type of a parameterized name in the instance being written. Clocks and resets other than the default ones are not represented. *)
Record host := { h_tr : string -> string; h_vios : string -> option (typ * Z); h_insts : string -> option instance; h_groups : string -> option (list string);
                 h_fields : string -> option bitfield; h_bound : string -> bool; h_inout : string -> bool; h_actual : string -> typ }.

(** * Source, antlr/silice.g4 181 and 337-344 *)
(** [constValue]: a number, a sized number (sign, width, value), [widthof]. *)
Inductive const := CNum (neg : bool) (n : Z) | CSized (neg : bool) (w v : Z) | CWidthof (x : string).
Inductive ident := Id (x : string) | Io (b : string) (ms : list string).
(** An identifier, or an entry of a table with its index, given by its text. *)
Inductive item := Plain (i : ident) | Entry (i : ident) (e : string).
(** What can be selected: an item, or a member of a bitfield in an item. *)
Inductive packed := Item (i : item) | Field (f : string) (i : item) (m : string).
Inductive access := Whole (p : packed) | Part (p : packed) (first : string) (n : const).

Section code.
  Context (h : host).

  (** * Types. [None] on an error. *)

  (** [gatherConstValue], 1902-1916, then [std::stoi], 7000-7005: the digits before the quote of a sized number, which are its width; an error outside of int.
      [widthof]: the declared width; an error when it is not a number (parameterized). *)
  Definition stoi (c : const) : option Z :=
    let int n := if (- 2 ^ 31 <=? n) && (n <? 2 ^ 31) then Some n else None in
    match c with
    | CNum neg n => int (if neg then - n else n)
    | CSized neg w _ => int (if neg then - w else w)
    | CWidthof x => match h_vios h x with Some ({| t_base := Param |}, _) | None => None | Some (t, _) => int (t_width t) end
    end.
  (** [determineIdentifierTypeAndWidth] 6888-6902, [determineIOAccessTypeAndWidth] 6906-6951. *)
  Definition type_ident (i : ident) : option typ :=
    match i with
    | Id x => option_map fst (h_vios h (h_tr h x))
    | Io b [m] =>
        let b := h_tr h b in
        match h_insts h b with
        | Some J =>
            match i_in J m, i_out J m with
            | Some t, _ => if i_bound J m then None else Some (fst t)
            | None, Some t => Some (fst t)
            | None, None => None
            end
        | None =>
            match h_groups h b with
            | Some l => if existsb (String.eqb m) l then option_map fst (h_vios h (h_tr h (b ++ "_" ++ m)%string)) else None
            | None => None
            end
        end
    | Io _ _ => None
    end.
  (** [determineTableAccessTypeAndWidth], 7015-7023: the type of the table is the one of its entries; nothing tells tables from other variables. *)
  Definition type_item (i : item) : option typ := match i with Plain i | Entry i _ => type_ident i end.
  (** [bitfieldMemberTypeAndOffset], 447-464, with the sign: from the last member to the first. *)
  Fixpoint member_loop (r : list member) (m : string) (o : Z) : option (typ * Z) :=
    match r with
    | [] => None
    | x :: r => if String.eqb m (m_name x) then Some ({| t_base := if m_unsigned x then UInt else Int; t_width := m_width x |}, o) else member_loop r m (o + m_width x)
    end.
  Definition member_of (f : bitfield) (m : string) : option (typ * Z) := member_loop (rev f) m 0.
  (** [determineBitfieldAccessTypeAndWidth], 6955-6982; [verifyMemberBitfield] (5212-5241) is that of C23: the first member of that name has to be unsigned and
      without an initial value. *)
  Definition type_packed (p : packed) : option typ :=
    match p with
    | Item i => type_item i
    | Field f i m =>
        match h_fields h f, type_item i with
        | Some F, Some t =>
            if verifyMemberBitfield m F then
              match member_of F m with
              | Some (mt, o) => match t_base t with
                                | Param => Some mt
                                | _ => if t_width t <? t_width mt + o then None else Some mt
                                end
              | None => None
              end
            else None
        | _, _ => None
        end
    end.
  (** [determinePartSelectTypeAndWidth], 6984-7011, [determineAccessTypeAndWidth], 7027-7046: the type of what is selected, with the width given. *)
  Definition type_access (a : access) : option typ :=
    match a with
    | Whole p => type_packed p
    | Part p _ n =>
        match type_packed p, stoi n with
        | Some t, Some w => if w <=? 0 then None else Some {| t_base := t_base t; t_width := w |}
        | _, _ => None
        end
    end.

  (** * Verilog *)
  (** A signal: that of a name of the unit (_d_, _q_, in_.. as in C14), or the wire of an output of an instance. *)
  Inductive signal := SVio (x : string) | SOut (i : instance) (m : string).
  (** A signal, an index, a range: the start is a text and an offset, the width is written as in the source. In $signed( ) or not. *)
  Record text := { x_sig : signal; x_index : option string; x_range : option ((option string * Z) * const); x_signed : bool }.

  (** [rewriteIdentifier], 1559-1675: which signal, and an error for names that are not declared and inouts. *)
  Definition name_of (x : string) : option signal :=
    let x := h_tr h x in
    match h_vios h x with Some _ => if h_inout h x then None else Some (SVio x) | None => None end.
  (** [writeIOAccess], 7345-7403, and identifiers: the signal, its type and its table size. [wr]: the access is a write. *)
  Definition write_ident (wr : bool) (i : ident) : option (signal * (typ * Z)) :=
    match i with
    | Id x => match name_of x, h_vios h (h_tr h x) with Some s, Some t => Some (s, t) | _, _ => None end
    | Io b [m] =>
        let b := h_tr h b in
        match h_insts h b with
        | Some J =>
            match i_in J m, i_out J m with
            | Some t, _ => if i_bound J m then None else option_map (fun s => (s, t)) (name_of (i_prefix J ++ "_" ++ m)%string)
            | None, Some t => if wr then None else Some (SOut J m, t)
            | None, None => None
            end
        | None =>
            match h_groups h b with
            | Some l => if existsb (String.eqb m) l
                        then if h_bound h b then None
                             else match name_of (b ++ "_" ++ m)%string, h_vios h (h_tr h (b ++ "_" ++ m)%string) with Some s, Some t => Some (s, t) | _, _ => None end
                        else None
            | None => None
            end
        end
    | Io _ _ => None
    end.
  (** [writeTableAccess], 7407-7430: "trying to access a non table as a table". *)
  Definition write_item (wr : bool) (i : item) : option (signal * option string) :=
    match i with
    | Plain i => option_map (fun p => (fst p, None)) (write_ident wr i)
    | Entry i e => match write_ident wr i with Some (s, (_, n)) => if n =? 0 then None else Some (s, Some e) | None => None end
    end.
  (** [writeBitfieldAccess], 7435-7478. [r]: range selected in the member, if any. *)
  Definition write_packed (wr : bool) (p : packed) (r : option (string * const)) : option text :=
    match p with
    | Item i => option_map (fun q => {| x_sig := fst q; x_index := snd q; x_range := option_map (fun r => ((Some (fst r), 0), snd r)) r; x_signed := false |}) (write_item wr i)
    | Field f i m =>
        match h_fields h f with
        | Some F =>
            if verifyMemberBitfield m F then
              match member_of F m, write_item wr i with
              | Some (mt, o), Some (s, e) =>
                  Some {| x_sig := s; x_index := e;
                          x_range := Some match r with None => ((None, o), CNum false (t_width mt)) | Some (a, n) => ((Some a, o), n) end;
                          x_signed := match t_base mt with Int => true | _ => false end |}
              | _, _ => None
              end
            else None
        | None => None
        end
    end.
  (** [writePartSelect], 7482-7518, [writeAccess], 7522-7543. *)
  Definition write_access (wr : bool) (a : access) : option text := match a with Whole p => write_packed wr p None | Part p e n => write_packed wr p (Some (e, n)) end.

  (** * What Verilog makes of it (IEEE 1364-2005) *)
  (** The declaration of a signal: its type and its table size. Parameterized types are those of the instance. *)
  Definition actual (x : string) (t : typ) : typ := match t_base t with Param => h_actual h x | _ => t end.
  Definition declared (s : signal) : option (typ * Z) :=
    match s with SVio x => option_map (fun p => (actual x (fst p), snd p)) (h_vios h x) | SOut J m => option_map (fun p => (actual m (fst p), snd p)) (i_out J m) end.
  (** The value of a constant: that of its digits, reduced to its width when sized. *)
  Definition const_value (c : const) : option Z :=
    match c with
    | CNum neg n => Some (if neg then - n else n)
    | CSized neg w v => Some (if neg then (- v) mod 2 ^ w else v mod 2 ^ w)
    | CWidthof x => match h_vios h x with Some ({| t_base := Param |}, _) | None => None | Some (t, _) => Some (t_width t) end
    end.
  (** Sign and width of an access: the names of arrays are only used with an index (4.9.3, 5.2.2), selecting bits gives an unsigned number (5.5.1). An access
      in $signed( ) is no left side of an assignment. *)
  Definition verilog (wr : bool) (x : text) : option (bool * Z) :=
    match declared (x_sig x) with
    | Some (t, n) =>
        if match x_index x with None => n =? 0 | Some _ => negb (n =? 0) end && negb (wr && x_signed x) then
          match x_range x with
          | None => Some (match t_base t with Int => true | _ => x_signed x end, t_width t)
          | Some (_, c) => match const_value c with Some w => if 0 <? w then Some (x_signed x, w) else None | None => None end
          end
        else None
    | None => None
    end.
End code.
