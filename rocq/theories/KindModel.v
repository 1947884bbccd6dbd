(** Accesses to the variables of an algorithm, of any kind: whole variables, entries of tables, parts, members of bitfields; what is written
    for reads and assignments of a block with conditionals. src/Algorithm.cpp 1559-1675 (rewriteIdentifier), 7343-7540 (accesses), 7534-7610
    (assignments), 8143-8300 (start of a cycle). *)
From Coq Require Import List Bool Arith ZArith.
Import ListNotations.
Local Open Scope Z_scope.

Definition var := nat.

(** How an identifier is declared and used. [KFlip], [KTemp]: flip-flops and temporaries, variables or outputs (the code is the same, src/Algorithm.cpp
    1593-1613 and 1634-1668); [KConst]: constants; [KWire]: wires, and variables or outputs bound to an output of an instance, which is a wire. *)
Inductive kind := KInput | KFlip | KTemp | KConst | KWire.
Record decl := { d_kind : kind; d_signed : bool; d_width : Z; d_size : Z (* 0: not a table *) }.

(** * Source *)

(** Operators are any functions. An access: identifier (or member of a group, or input of an instance, src/Algorithm.cpp 7343-7403: identifiers once
    their name is made), entry, part. *)
Inductive expr := EC (n : Z) | EU (f : Z -> Z) (a : expr) | EB (f : Z -> Z -> Z) (a b : expr) | ERead (x : var) (i : entry) (s : sel)
with entry := INone | IAt (e : expr)
with sel :=
  | SAll                                            (* x, x[i] *)
  | SPart (e : expr) (n : Z)                        (* x[e,n], x[i][e,n] *)
  | SField (sg : bool) (o w : Z)                    (* member of a bitfield: sign, offset, width *)
  | SFieldPart (sg : bool) (o w : Z) (e : expr) (n : Z).  (* part of a member *)
Inductive stmt := SAssign (x : var) (i : entry) (s : sel) (e : expr) | SIf (e : expr) (a b : list stmt).

(** * Verilog *)

(** Signals of a variable: _q_, _d_, _t_, in_, _c_ (or a define), _w_. *)
Inductive cell := CQ | CD | CT | CI | CC | CW.
(** A signal, an index, a range [e +: n], written in $signed( ) or not. *)
Inductive vexp := VC (n : Z) | VU (f : Z -> Z) (a : vexp) | VB (f : Z -> Z -> Z) (a b : vexp) | VRead (c : cell) (x : var) (i : ventry) (p : vpart) (sg : bool)
with ventry := VNone | VAt (e : vexp)
with vpart := VAll | VPart (e : vexp) (n : Z).
Inductive vstmt := VSet (c : cell) (x : var) (i : ventry) (p : vpart) (sg : bool) (e : vexp) | VIf (e : vexp) (a b : list vstmt).

Section code.
  Context (decls : var -> decl).

  (** [rewriteIdentifier]: [written] when the access is a write (ff is then FF_D, 7428, 7469, 7494), [dep] when the variable was written before (the
      dependencies). Reads are made with ff = FF_Q. *)
  Definition signal (written dep : bool) (k : kind) : cell :=
    match k with
    | KInput => CI
    | KTemp => CT
    | KConst => CC
    | KWire => CW
    | KFlip => if written then CD else if dep then CD else CQ
    end.

  Definition memb (x : var) (l : list var) : bool := existsb (Nat.eqb x) l.
  (** An index is given exactly for tables: "trying to access a non table as a table", 7432; a table without an index is accepted and is not legal Verilog (C63). *)
  Definition shape_ok (x : var) (i : entry) : bool := match i with INone => d_size (decls x) =? 0 | IAt _ => negb (d_size (decls x) =? 0) end.

  (** [rewriteExpression], [writeAccess]: [None] on an error. *)
  Fixpoint rewrite (deps : list var) (e : expr) : option vexp :=
    match e with
    | EC n => Some (VC n)
    | EU f a => option_map (VU f) (rewrite deps a)
    | EB f a b => match rewrite deps a, rewrite deps b with Some a', Some b' => Some (VB f a' b') | _, _ => None end
    | ERead x i s =>
        if shape_ok x i then
          match rewrite_entry deps i, rewrite_sel deps s with
          | Some i', Some (p, sg) => Some (VRead (signal false (memb x deps) (d_kind (decls x))) x i' p sg)
          | _, _ => None
          end
        else None
    end
  with rewrite_entry (deps : list var) (i : entry) : option ventry :=
    match i with INone => Some VNone | IAt e => option_map VAt (rewrite deps e) end
  (** [writePartSelect] 7482-7518 and [writeBitfieldAccess] 7435-7478: the range, and whether the access is in $signed( ), for reads and writes alike.
      A signed member is an error: "bitfield members can only be unsigned", [verifyMemberBitfield], 5231-5235, called first (7445);
      members of a bitfield are assumed to have different names (see C63). *)
  with rewrite_sel (deps : list var) (s : sel) : option (vpart * bool) :=
    match s with
    | SAll => Some (VAll, false)
    | SPart e n => option_map (fun v => (VPart v n, false)) (rewrite deps e)
    | SField sg o w => if sg then None else Some (VPart (VC o) w, sg)
    | SFieldPart sg o w e n => if sg then None else option_map (fun v => (VPart (VB Z.add v (VC o)) n, sg)) (rewrite deps e)
    end.

  (** [writeAssignement], 7534-7606, and the update of the dependencies, 8769: the variable is added to them. An input cannot be assigned. *)
  Definition write_assign (deps : list var) (x : var) (i : entry) (s : sel) (e : expr) : option vstmt :=
    match d_kind (decls x) with
    | KInput => None
    | k =>
        if shape_ok x i then
          match rewrite_entry deps i, rewrite_sel deps s, rewrite deps e with
          | Some i', Some (p, sg), Some e' => Some (VSet (signal true (memb x deps) k) x i' p sg e')
          | _, _, _ => None
          end
        else None
    end.
  (** The code of a block and the dependencies after it; conditionals as in src/Algorithm.cpp 8915-8990: the dependencies of both branches are
      merged. *)
  Fixpoint write (deps : list var) (s : stmt) : option (vstmt * list var) :=
    let all := fix all (deps : list var) (l : list stmt) : option (list vstmt * list var) :=
      match l with
      | [] => Some ([], deps)
      | s :: r => match write deps s with
                  | Some (c, d) => match all d r with Some (cs, d') => Some (c :: cs, d') | None => None end
                  | None => None
                  end
      end in
    match s with
    | SAssign x i s e => option_map (fun c => (c, x :: deps)) (write_assign deps x i s e)
    | SIf e a b =>
        match rewrite deps e, all deps a, all deps b with
        | Some e', Some (ca, da), Some (cb, db) => Some (VIf e' ca cb, deps ++ da ++ db)
        | _, _, _ => None
        end
    end.
  Fixpoint writes (deps : list var) (l : list stmt) : option (list vstmt * list var) :=
    match l with
    | [] => Some ([], deps)
    | s :: r => match write deps s with
                | Some (c, d) => match writes d r with Some (cs, d') => Some (c :: cs, d') | None => None end
                | None => None
                end
    end.

  (** * Meaning of the Verilog code *)

  (** Bits of the entries of variables (entry 0 when not a table); [unk]: what is read outside of the declared bits, unknown. *)
  Definition mem := var -> Z -> Z -> bool.
  Context (unk : mem).
  Definition inside (x : var) (i k : Z) : bool :=
    (if d_size (decls x) =? 0 then i =? 0 else (0 <=? i) && (i <? d_size (decls x))) && (0 <=? k) && (k <? d_width (decls x)).
  (** The number made of [n] bits. *)
  Fixpoint bits (f : Z -> bool) (n : nat) : Z := match n with O => 0 | S n' => Z.b2z (f 0) + 2 * bits (fun k => f (k + 1)) n' end.
  Definition number (sg : bool) (f : Z -> bool) (n : Z) : Z :=
    let v := bits f (Z.to_nat n) in if sg && (0 <? n) && f (n - 1) then v - 2 ^ n else v.
  Definition look (m : mem) (x : var) (i k : Z) : bool := if inside x i k then m x i k else unk x i k.
  Definition put (m : mem) (x : var) (i o n v : Z) : mem :=
    fun y j k => if Nat.eqb y x && (j =? i) && inside x i k && (o <=? k) && (k <? o + n) then Z.testbit v (k - o) else m y j k.

  Record signals := { m_q : mem; m_d : mem; m_t : mem; m_i : mem; m_c : mem; m_w : mem }.
  Definition cell_of (s : signals) (c : cell) : mem :=
    match c with CQ => m_q s | CD => m_d s | CT => m_t s | CI => m_i s | CC => m_c s | CW => m_w s end.
  (** A whole signal has the sign of its declaration, a part has none, $signed( ) gives one. *)
  Fixpoint veval (s : signals) (e : vexp) : Z :=
    match e with
    | VC n => n
    | VU f a => f (veval s a)
    | VB f a b => f (veval s a) (veval s b)
    | VRead c x i p sg =>
        let j := ventry_of s i in
        match p with
        | VAll => number (d_signed (decls x) || sg) (look (cell_of s c) x j) (d_width (decls x))
        | VPart e n => let o := veval s e in number sg (fun k => look (cell_of s c) x j (o + k)) n
        end
    end
  with ventry_of (s : signals) (i : ventry) : Z := match i with VNone => 0 | VAt e => veval s e end.
  Definition range_of (s : signals) (x : var) (p : vpart) : Z * Z := match p with VAll => (0, d_width (decls x)) | VPart e n => (veval s e, n) end.

  (** Blocking assignments; [None]: not legal Verilog ($signed( ) on the left, a signal that is not a variable of the block). *)
  Definition vset (s : signals) (c : cell) (x : var) (i o n v : Z) : option signals :=
    match c with
    | CD => Some {| m_q := m_q s; m_d := put (m_d s) x i o n v; m_t := m_t s; m_i := m_i s; m_c := m_c s; m_w := m_w s |}
    | CT => Some {| m_q := m_q s; m_d := m_d s; m_t := put (m_t s) x i o n v; m_i := m_i s; m_c := m_c s; m_w := m_w s |}
    | _ => None
    end.
  Fixpoint vexec (s : signals) (c : vstmt) : option signals :=
    let run := fix run (s : signals) (l : list vstmt) : option signals :=
      match l with [] => Some s | c :: r => match vexec s c with Some s' => run s' r | None => None end end in
    match c with
    | VSet c x i p sg e => if (sg : bool) then None else let (o, n) := range_of s x p in vset s c x (ventry_of s i) o n (veval s e)
    | VIf e a b => if veval s e =? 0 then run s b else run s a
    end.
  Fixpoint vexecs (s : signals) (l : list vstmt) : option signals :=
    match l with [] => Some s | c :: r => match vexec s c with Some s' => vexecs s' r | None => None end end.

  (** The start of a cycle: [writeCombinationalAlwaysPre], 8143-8152 and 8271-8298: _d_ = _q_ for flip-flops, entry by entry; temporaries have their
      initial value [t0]. *)
  Definition start (q t0 i c w : mem) : signals := {| m_q := q; m_d := q; m_t := t0; m_i := i; m_c := c; m_w := w |}.
End code.
