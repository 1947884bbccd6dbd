(** Widths inferred by the expression linter, and the values of the expressions in the generated Verilog. *)
From Coq Require Import List Bool Arith ZArith.
Import ListNotations.
Local Open Scope Z_scope.

Inductive ty := UInt | Int.
Definition ty_eqb (a b : ty) : bool := match a, b with UInt, UInt => true | Int, Int => true | _, _ => false end.

(** Operators of expression_1 .. expression_10 and unaryExpression, antlr/silice.g4 262-313. *)
Inductive bop := Add | Sub | Mul | Shr | Shl | AShr | AShl | Eq | Ne | Lt | Gt | Le | Ge | And | Or | Xor | Xnor | LAnd | LOr.
Inductive uop := Neg | Not | LNot | RAnd | RNand | ROr | RNor | RXor | RXnor.

(** Expressions. Accesses are variables of the type and width given by the host. A concatenation {a,b,c} is
    [Cat a (Cat b c)], [Rep n e] is {n e}. Parentheses are transparent; __widthof is a plain number. *)
Inductive expr :=
| Sized (w : nat) (v : Z)       (* w'd..: always unsigned, src/TypesAndConsts.cpp 66-78 *)
| Num (v : Z)                   (* plain number *)
| Var (id : nat)
| Un (o : uop) (e : expr)
| Bin (o : bop) (a b : expr)
| Tern (c a b : expr)
| Cat (a b : expr)
| Rep (n : nat) (e : expr)
| ToSigned (e : expr)
| ToUnsigned (e : expr).

(** Declarations and values of the variables. *)
Record env := { v_type : nat -> ty; v_width : nat -> nat; v_val : nat -> Z }.

(** [base_type_of], src/ExpressionLinter.cpp 303-310. *)
Definition base_type_of (a b : ty) : ty := match a, b with UInt, _ => UInt | _, UInt => UInt | _, _ => Int end.

(** [checkAndApplyOperator], src/ExpressionLinter.cpp 314-360 (warnings left out). *)
Definition apply_op (o : bop) (a b : ty * Z) : ty * Z :=
  match o with
  | Add | Sub => (base_type_of (fst a) (fst b), Z.max (snd a) (snd b) + 1)
  | Mul => (base_type_of (fst a) (fst b), snd a + snd b)
  | Shr | Shl => (UInt, snd a)
  | Eq | Ne | Lt | Gt | Le | Ge => (UInt, 1)
  | _ => (base_type_of (fst a) (fst b), Z.max (snd a) (snd b))
  end.

(** [checkAndApplyUnaryOperator], src/ExpressionLinter.cpp 364-381. *)
Definition apply_unary (o : uop) (u : ty * Z) : ty * Z :=
  match o with Neg | Not => u | _ => (UInt, 1) end.

(** [typeNfo], src/ExpressionLinter.cpp 385-521. [None]: error on a concatenation of unknown width (284-286).
    The width computed for a replication at 485 is overwritten at 491-494. *)
Fixpoint type_nfo (G : env) (e : expr) : option (ty * Z) :=
  match e with
  | Sized w _ => Some (UInt, Z.of_nat w)
  | Num _ => Some (UInt, -1)
  | Var x => Some (v_type G x, Z.of_nat (v_width G x))
  | Un o u => option_map (apply_unary o) (type_nfo G u)
  | Bin o a b =>
      match type_nfo G a, type_nfo G b with Some ta, Some tb => Some (apply_op o ta tb) | _, _ => None end
  | Tern c a b =>
      match type_nfo G c, type_nfo G a, type_nfo G b with
      | Some _, Some ta, Some tb => Some (base_type_of (fst ta) (fst tb), Z.max (snd ta) (snd tb))
      | _, _, _ => None
      end
  | Cat a b =>
      match type_nfo G a, type_nfo G b with
      | Some ta, Some tb => if (snd ta =? -1) || (snd tb =? -1) then None else Some (fst ta, snd ta + snd tb)
      | _, _ => None
      end
  | Rep n a =>
      match type_nfo G a with
      | Some ta => if snd ta =? -1 then None else Some (fst ta, snd ta)
      | None => None
      end
  | ToSigned a => option_map (fun t => (Int, snd t)) (type_nfo G a)
  | ToUnsigned a => option_map (fun t => (UInt, snd t)) (type_nfo G a)
  end.

(** [lintAssignment], src/ExpressionLinter.cpp 86-93: is the width reported? *)
Definition warns_width (lvalue_width : nat) (t : ty * Z) : bool := Z.of_nat lvalue_width <? snd t.

(** Verilog: sizes and signs of expressions (IEEE 1364-2005, 5.4.1 and 5.5.1). The code emits the expressions as they are written. *)
Fixpoint vwidth (G : env) (e : expr) : nat :=
  match e with
  | Sized w _ => w
  | Num _ => 32%nat
  | Var x => v_width G x
  | Un Neg u | Un Not u => vwidth G u
  | Un _ _ => 1%nat
  | Bin o a b =>
      match o with
      | Add | Sub | Mul | And | Or | Xor | Xnor => Nat.max (vwidth G a) (vwidth G b)
      | Shr | Shl | AShr | AShl => vwidth G a
      | _ => 1%nat
      end
  | Tern _ a b => Nat.max (vwidth G a) (vwidth G b)
  | Cat a b => (vwidth G a + vwidth G b)%nat
  | Rep n a => (n * vwidth G a)%nat
  | ToSigned a | ToUnsigned a => vwidth G a
  end.

Fixpoint vsigned (G : env) (e : expr) : bool :=
  match e with
  | Sized _ _ => false
  | Num _ => true
  | Var x => match v_type G x with Int => true | UInt => false end
  | Un Neg u | Un Not u => vsigned G u
  | Un _ _ => false
  | Bin o a b =>
      match o with
      | Add | Sub | Mul | And | Or | Xor | Xnor => vsigned G a && vsigned G b
      | Shr | Shl | AShr | AShl => vsigned G a
      | _ => false
      end
  | Tern _ a b => vsigned G a && vsigned G b
  | Cat _ _ | Rep _ _ | ToUnsigned _ => false
  | ToSigned _ => true
  end.

Definition pow2 (n : nat) : Z := 2 ^ Z.of_nat n.
Definition bit (b : bool) : Z := if b then 1 else 0.

(** The signed reading of a [w]-bit word. *)
Definition to_signed (w : nat) (x : Z) : Z := if (pow2 w <=? 2 * x) then x - pow2 w else x.

(** Extension of a [w]-bit word to [L] bits. *)
Definition extend (sg : bool) (w L : nat) (x : Z) : Z := (if sg then to_signed w x else x) mod pow2 L.

Definition cmp_op (o : bop) (x y : Z) : bool :=
  match o with
  | Eq => x =? y | Ne => negb (x =? y) | Lt => x <? y | Gt => y <? x | Le => x <=? y | Ge => y <=? x | _ => false
  end.

Fixpoint parity (n : nat) (x : Z) : bool :=
  match n with O => false | S k => xorb (Z.testbit x (Z.of_nat k)) (parity k x) end.

(** Value, as an [L]-bit word, of an expression whose context has size [L] and sign [sg] (IEEE 1364-2005, 5.5.2). *)
Fixpoint veval (G : env) (sg : bool) (L : nat) (e : expr) : Z :=
  let self := fun x => veval G (vsigned G x) (vwidth G x) x in
  match e with
  | Sized w v => extend false w L (v mod pow2 w)
  | Num v => extend sg 32 L (v mod pow2 32)
  | Var x => extend sg (v_width G x) L (v_val G x mod pow2 (v_width G x))
  | Un o u =>
      match o with
      | Neg => (- veval G sg L u) mod pow2 L
      | Not => (-1 - veval G sg L u) mod pow2 L
      | LNot | RNor => bit (self u =? 0) mod pow2 L
      | ROr => bit (negb (self u =? 0)) mod pow2 L
      | RAnd => bit (self u =? pow2 (vwidth G u) - 1) mod pow2 L
      | RNand => bit (negb (self u =? pow2 (vwidth G u) - 1)) mod pow2 L
      | RXor => bit (parity (vwidth G u) (self u)) mod pow2 L
      | RXnor => bit (negb (parity (vwidth G u) (self u))) mod pow2 L
      end
  | Bin o a b =>
      match o with
      | Add => (veval G sg L a + veval G sg L b) mod pow2 L
      | Sub => (veval G sg L a - veval G sg L b) mod pow2 L
      | Mul => (veval G sg L a * veval G sg L b) mod pow2 L
      | And => Z.land (veval G sg L a) (veval G sg L b)
      | Or => Z.lor (veval G sg L a) (veval G sg L b)
      | Xor => Z.lxor (veval G sg L a) (veval G sg L b)
      | Xnor => (-1 - Z.lxor (veval G sg L a) (veval G sg L b)) mod pow2 L
      | Shl | AShl => (veval G sg L a * 2 ^ veval G false (vwidth G b) b) mod pow2 L
      | Shr => veval G sg L a / 2 ^ veval G false (vwidth G b) b
      | AShr => ((if sg then to_signed L (veval G sg L a) else veval G sg L a) / 2 ^ veval G false (vwidth G b) b) mod pow2 L
      | LAnd => bit (negb (self a =? 0) && negb (self b =? 0)) mod pow2 L
      | LOr => bit (negb (self a =? 0) || negb (self b =? 0)) mod pow2 L
      | _ =>
          let m := Nat.max (vwidth G a) (vwidth G b) in
          let s := vsigned G a && vsigned G b in
          let rd := fun x => if s then to_signed m (veval G s m x) else veval G s m x in
          bit (cmp_op o (rd a) (rd b)) mod pow2 L
      end
  | Tern c a b => if self c =? 0 then veval G sg L b else veval G sg L a
  | Cat a b => (self a * pow2 (vwidth G b) + self b) mod pow2 L
  | Rep n a => ((fix rep k := match k with O => 0 | S k' => rep k' * pow2 (vwidth G a) + self a end) n) mod pow2 L
  | ToSigned a => extend sg (vwidth G a) L (self a)
  | ToUnsigned a => self a mod pow2 L
  end.

(** The value an assignment to a variable of width [lw] stores (IEEE 1364-2005, 5.5.2 and 5.6). *)
Definition assigned (G : env) (lw : nat) (e : expr) : Z :=
  veval G (vsigned G e) (Nat.max lw (vwidth G e)) e mod pow2 lw.

(** Specification side. The value of an expression over unbounded integers. Operands that Verilog sizes on their own
    (tests, comparison operands, shift amounts, concatenated parts, conversions) have their Verilog value. *)
Fixpoint exact (G : env) (e : expr) : Z :=
  match e with
  | Sized w v => v mod pow2 w
  | Num v => v
  | Var x =>
      match v_type G x with
      | Int => to_signed (v_width G x) (v_val G x mod pow2 (v_width G x))
      | UInt => v_val G x mod pow2 (v_width G x)
      end
  | Bin Add a b => exact G a + exact G b
  | Bin Sub a b => exact G a - exact G b
  | Bin Mul a b => exact G a * exact G b
  | Bin And a b => Z.land (exact G a) (exact G b)
  | Bin Or a b => Z.lor (exact G a) (exact G b)
  | Bin Xor a b => Z.lxor (exact G a) (exact G b)
  | Bin Shr a b | Bin AShr a b => exact G a / 2 ^ veval G false (vwidth G b) b
  | Tern c a b => if veval G (vsigned G c) (vwidth G c) c =? 0 then exact G b else exact G a
  | ToSigned a => to_signed (vwidth G a) (veval G (vsigned G a) (vwidth G a) a)
  | _ => veval G (vsigned G e) (vwidth G e) e
  end.

(** All variables and sized numbers have at least one bit; no unsized number, no replication. *)
Fixpoint sized_expr (G : env) (e : expr) : bool :=
  match e with
  | Sized w _ => (1 <=? w)%nat
  | Num _ => false
  | Var x => (1 <=? v_width G x)%nat
  | Un _ u => sized_expr G u
  | Bin _ a b => sized_expr G a && sized_expr G b
  | Tern _ a b => sized_expr G a && sized_expr G b
  | Cat a b => sized_expr G a && sized_expr G b
  | Rep _ _ => false
  | ToSigned a | ToUnsigned a => sized_expr G a
  end.

(** Unsigned expressions without subtraction, left shift or complement. *)
Fixpoint unsigned_expr (G : env) (e : expr) : bool :=
  match e with
  | Sized w _ => (1 <=? w)%nat
  | Var x => ty_eqb (v_type G x) UInt && (1 <=? v_width G x)%nat
  | Un Neg _ | Un Not _ => false
  | Un _ _ => true
  | Bin o a b =>
      match o with
      | Add | Mul | And | Or | Xor => unsigned_expr G a && unsigned_expr G b
      | Shr | AShr => unsigned_expr G a
      | Eq | Ne | Lt | Gt | Le | Ge => true
      | LAnd | LOr => sized_expr G a && sized_expr G b
      | Sub | Shl | AShl | Xnor => false
      end
  | Tern _ a b => unsigned_expr G a && unsigned_expr G b
  | Cat a b => sized_expr G a && sized_expr G b
  | ToUnsigned a => sized_expr G a
  | Num _ | Rep _ _ | ToSigned _ => false
  end.

(** Signed expressions. *)
Fixpoint signed_expr (G : env) (e : expr) : bool :=
  match e with
  | Var x => ty_eqb (v_type G x) Int && (1 <=? v_width G x)%nat
  | Bin o a b =>
      match o with
      | Add | Sub | Mul | And | Or | Xor => signed_expr G a && signed_expr G b
      | AShr => signed_expr G a
      | _ => false
      end
  | Tern _ a b => signed_expr G a && signed_expr G b
  | ToSigned a => sized_expr G a
  | _ => false
  end.
