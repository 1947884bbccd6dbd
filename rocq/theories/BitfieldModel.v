(** Bitfields: width, member offsets, initializers, constant bit ranges. *)
From Coq Require Import ZArith String List Bool.
Import ListNotations.
Local Open Scope Z_scope.

(** A member of a bitfield: name, signedness of its type, width in bits (after
    [splitType], src/TypesAndConsts.cpp 36-46; [sameas] members are rejected and
    not represented). Presence of an initial value is a flag. *)
Record member := mkMember { m_name : string; m_unsigned : bool; m_width : Z; m_has_init : bool }.

(** Declared members in source order. *)
Definition bitfield := list member.

(** [Algorithm::bitfieldWidth], src/Algorithm.cpp 431-443. *)
Definition bitfieldWidth (f : bitfield) : Z :=
  fold_left (fun tot m => tot + m_width m) f 0.

(** Loop of [Algorithm::bitfieldMemberTypeAndOffset] over the members from the
    last to the first, src/Algorithm.cpp 451-461; [r] is the reversed list. *)
Fixpoint member_offset_loop (r : list member) (name : string) (offset : Z) : option (Z * Z) :=
  match r with
  | [] => None                                   (* make_pair(t_type_nfo(), -1) *)
  | m :: r' => if String.eqb name (m_name m) then Some (m_width m, offset)
               else member_offset_loop r' name (offset + m_width m)
  end.

(** [Algorithm::bitfieldMemberTypeAndOffset], src/Algorithm.cpp 447-464: (width, offset). *)
Definition bitfieldMemberTypeAndOffset (f : bitfield) (name : string) : option (Z * Z) :=
  member_offset_loop (rev f) name 0.

(** [Algorithm::verifyMemberBitfield], src/Algorithm.cpp 5212-5241: checks the
    first member of that name; [false] is [reportError]. *)
Fixpoint verifyMemberBitfield (name : string) (f : bitfield) : bool :=
  match f with
  | [] => false
  | m :: f' => if String.eqb (m_name m) name then negb (m_has_init m) && m_unsigned m
               else verifyMemberBitfield name f'
  end.

(** A constant as gathered by [gatherConstValue], src/Algorithm.cpp 1902-1916:
    sized ([w'b...]) or a bare number. A negative bare number would be printed as
    [w'd-n], which is not a Verilog literal. *)
Inductive const := CSized (w v : Z) | CBare (v : Z).

(** One element of the concatenation written by [gatherBitfieldValue],
    src/Algorithm.cpp 499-503: its Verilog width and value; a sized constant is
    written unchanged whatever the width of the member. [None]: not Verilog. *)
Definition concat_element (m : member) (c : const) : option (Z * Z) :=
  match c with
  | CSized w v => Some (w, v mod 2 ^ w)
  | CBare v => if v <? 0 then None else Some (m_width m, v mod 2 ^ m_width m)
  end.

(** Last value given for a name, [named_values[...] = ...], src/Algorithm.cpp 477-482. *)
Definition named_value (vals : list (string * const)) (n : string) : option const :=
  fold_left (fun acc p => if String.eqb (fst p) n then Some (snd p) else acc) vals None.

(** Number of distinct names given, [named_values.size()], src/Algorithm.cpp 484. *)
Definition named_count (vals : list (string * const)) : nat :=
  length (nodup string_dec (map fst vals)).

Fixpoint concat_elements (f : bitfield) (vals : list (string * const)) : option (list (Z * Z)) :=
  match f with
  | [] => Some []
  | m :: f' =>
      match named_value vals (m_name m) with
      | None => None                             (* named_values.at throws *)
      | Some c => match concat_element m c, concat_elements f' vals with
                  | Some e, Some l => Some (e :: l)
                  | _, _ => None
                  end
      end
  end.

(** [Algorithm::gatherBitfieldValue], src/Algorithm.cpp 468-510: the elements of the
    emitted Verilog concatenation, first one most significant. *)
Definition gatherBitfieldValue (f : bitfield) (vals : list (string * const)) : option (list (Z * Z)) :=
  if forallb (fun p => verifyMemberBitfield (fst p) f) vals
     && Nat.eqb (named_count vals) (length f)
  then concat_elements f vals else None.

(** Verilog: width and value of a concatenation [{e1,...,en}] of sized elements. *)
Fixpoint concat_width (l : list (Z * Z)) : Z :=
  match l with [] => 0 | (w, _) :: l' => w + concat_width l' end.
Fixpoint concat_value (l : list (Z * Z)) : Z :=
  match l with [] => 0 | (w, v) :: l' => (v mod 2 ^ w) * 2 ^ concat_width l' + concat_value l' end.

(** Verilog: part select [x[off +: w]]. *)
Definition part_select (x off w : Z) : Z := (x / 2 ^ off) mod 2 ^ w.

(** ** Constant bit ranges: (offset, width) *)

(** [Algorithm::determineBitfieldAccessTypeAndWidth], src/Algorithm.cpp 6955-6981:
    accepted if the member lies inside the packed variable of width [packed]
    ([None] for a parameterized type, which is not checked). *)
Definition bitfieldAccess_ok (f : bitfield) (name : string) (packed : option Z) : bool :=
  verifyMemberBitfield name f &&
  match bitfieldMemberTypeAndOffset f name, packed with
  | Some (w, o), Some p => negb (w + o >? p)
  | Some _, None => true
  | None, _ => false
  end.

(** [Algorithm::determineAccessConstBitRange] for a bitfield access,
    src/Algorithm.cpp 7066-7089; [range] is the enclosing part select, or none. *)
Definition bitfieldConstBitRange (f : bitfield) (name : string) (range : option (Z * Z)) : option (Z * Z) :=
  match bitfieldMemberTypeAndOffset f name with
  | None => None
  | Some (w, o) => match range with
                   | Some (r0, r1) => if r0 >? -1 then Some (o + r0, r1) else Some (o, w)
                   | None => Some (o, w)
                   end
  end.

(** [Algorithm::determinePartSelectTypeAndWidth], src/Algorithm.cpp 6985-7012: the only
    check on a part select is that its width is positive. *)
Definition partSelect_ok (r0 r1 : Z) : bool := 0 <? r1.
