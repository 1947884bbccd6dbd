(** Expressions: the trees of the grammar of the sources, the text written for them, and how a Verilog tool reads this text. *)
From Coq Require Import String Ascii List Bool Arith NArith.
From Verif Require Import LiteralModel.
Import ListNotations.
Local Open Scope string_scope.
Local Open Scope list_scope.

(** Binary operators, antlr/silice.g4 262-311, and unary operators, antlr/silice.g4 312-314. *)
Inductive bop := LOr | LAnd | Or | Xor | XnorA | XnorB | And | CEq | Eq | CNe | Ne | Lt | Gt | Le | Ge | Shl | AShl | Shr | AShr | Add | Sub | Mul.
Inductive uop := Neg | LNot | RNand | RNor | RAnd | ROr | RXor | RXnorA | RXnorB | Not.

Definition btext (o : bop) : string :=
  match o with
  | LOr => "||" | LAnd => "&&" | Or => "|" | Xor => "^" | XnorA => "^~" | XnorB => "~^" | And => "&"
  | CEq => "===" | Eq => "==" | CNe => "!==" | Ne => "!=" | Lt => "<" | Gt => ">" | Le => "<=" | Ge => ">="
  | Shl => "<<" | AShl => "<<<" | Shr => ">>" | AShr => ">>>" | Add => "+" | Sub => "-" | Mul => "*"
  end.
Definition utext (o : uop) : string :=
  match o with
  | Neg => "-" | LNot => "!" | RNand => "~&" | RNor => "~|" | RAnd => "&" | ROr => "|" | RXor => "^"
  | RXnorA => "^~" | RXnorB => "~^" | Not => "~"
  end.

(** The rule an operator belongs to: expression_1 is 2, ..., expression_10 is 11, antlr/silice.g4 262-311.
    0 is for lists of arguments, 1 for expression_0, 12 for unaryExpression, 13 for atom. *)
Definition slevel (o : bop) : nat :=
  match o with
  | LOr => 2 | LAnd => 3 | Or => 4 | Xor | XnorA | XnorB => 5 | And => 6 | CEq | Eq | CNe | Ne => 7
  | Lt | Gt | Le | Ge => 8 | Shl | AShl | Shr | AShr => 9 | Add | Sub => 10 | Mul => 11
  end.

(** How an identifier is written by [rewriteIdentifier], src/Algorithm.cpp 1559-1675: a name, or, for a constant turned into a
    macro, a conversion of this macro (1636-1649). *)
Inductive idform := Plain | AsSigned | AsUnsigned.

(** Trees of the sources. Identifiers and accesses to members of groups and instances are given by the name they are rewritten to.
    A comma separates the arguments of a concatenation. *)
Inductive expr :=
| ENum (s : string)                                          (* NUMBER *)
| ESized (neg : bool) (w : N) (b : ascii) (v : string)       (* SIZED_NUMBER, after splitNumber *)
| EId (f : idform) (s : string)                              (* IDENTIFIER, ioAccess *)
| ERepeat (n : N)                                            (* __id *)
| ECast (a : expr)                                           (* combcast *)
| EParen (e : expr)
| ESigned (e : expr)                                         (* __signed(e) *)
| EUnsigned (e : expr)                                       (* __unsigned(e) *)
| EWidthof (s : string)                                      (* widthof(..), by the width found *)
| EDone (s : string)                                         (* isdone(..), by the wire found *)
| ECat (args : expr)
| ERep (n : string) (c : expr)                               (* {n {..}} *)
| EIndex (b e : expr)                                        (* tableAccess *)
| ESelect (b e : expr) (n : string)                          (* partSelect of an identifier or a table access *)
| EField (sg : bool) (b : expr) (off w : string)             (* bitfieldAccess; [sg] is false for all those accepted, src/Algorithm.cpp 5231-5235 *)
| EFieldSel (sg : bool) (b e : expr) (off n : string)        (* partSelect of a bitfieldAccess *)
| EUn (o : uop) (a : expr)
| EBin (o : bop) (l r : expr)
| ETern (c a b : expr)
| EComma (a b : expr).

(** The character classes of the words of the generated text: identifiers, macros, numbers. *)
Definition wordc (c : ascii) : bool :=
  let n := nat_of_ascii c in
  ((97 <=? n) && (n <=? 122) || (65 <=? n) && (n <=? 90) || (48 <=? n) && (n <=? 57)
   || (n =? 95) || (n =? 36) || (n =? 39) || (n =? 96))%nat.
Definition word (s : string) : Prop := s <> "" /\ all_chars wordc s = true.

Definition lvl (e : expr) : nat :=
  match e with EComma _ _ => 0 | ETern _ _ _ => 1 | EBin o _ _ => slevel o | EUn _ _ => 12 | _ => 13 end.

Definition plain (e : expr) : Prop := match e with EId Plain _ => True | _ => False end.
Definition base (e : expr) : Prop := match e with EId Plain _ => True | EIndex _ _ => True | _ => False end.
Definition access (e : expr) : Prop :=
  match e with EId _ _ | EIndex _ _ | ESelect _ _ _ | EField _ _ _ _ | EFieldSel _ _ _ _ _ => True | _ => False end.

(** The trees derived by the grammar, antlr/silice.g4 255-344. The rule of the conditional operator, 257-258, is ambiguous. ANTLR
    reads [x ? a : b ? c : d] as [(x ? a : b) ? c : d]: operators are left associative unless assoc=right is written. Indices
    of constants turned into macros are excluded ([isPartialAccess], src/Algorithm.cpp 7526-7531). *)
Fixpoint der (e : expr) : Prop :=
  match e with
  | ENum s => word s
  | ESized _ _ b v => wordc b = true /\ all_chars wordc v = true
  | EId _ s => word s
  | ERepeat _ => True
  | ECast a => access a /\ der a
  | EParen x | ESigned x | EUnsigned x => 1 <= lvl x /\ der x
  | EWidthof s | EDone s => word s
  | ECat x => der x
  | ERep n c => word n /\ match c with ECat _ | ERep _ _ => True | _ => False end /\ der c
  | EIndex b x => plain b /\ der b /\ 1 <= lvl x /\ der x
  | ESelect b x n => base b /\ der b /\ 1 <= lvl x /\ der x /\ word n
  | EField _ b off w => base b /\ der b /\ word off /\ word w
  | EFieldSel _ b x off n => base b /\ der b /\ 1 <= lvl x /\ der x /\ word off /\ word n
  | EUn _ a => 13 <= lvl a /\ der a
  | EBin o l r => slevel o <= lvl l /\ der l /\ S (slevel o) <= lvl r /\ der r
  | ETern c a b => 1 <= lvl c /\ der c /\ 1 <= lvl a /\ der a /\ 2 <= lvl b /\ der b
  | EComma a b => 1 <= lvl a /\ der a /\ der b
  end.

(** [rewriteIdentifier] on a read, src/Algorithm.cpp 1585-1671. *)
Definition write_id (f : idform) (s : string) : string :=
  match f with Plain => s | AsSigned => "$signed(" ++ s ++ ")" | AsUnsigned => "$unsigned(" ++ s ++ ")" end%string.

(** [rewriteNumber], src/Algorithm.cpp 419-427, after [splitNumber]. *)
Definition write_number (neg : bool) (w : N) (b : ascii) (v : string) : string :=
  ((if neg then "-" else "") ++ to_string w ++ "'" ++ String b v)%string.

(** [rewriteExpression], src/Algorithm.cpp 1691-1770, [writeAccess], 7511-7532, [writeIOAccess], 7344-7403, [writeTableAccess],
    7407-7430, [writeBitfieldAccess], 7434-7473, [writePartSelect], 7477-7507. The text of a suffix is written after the name. *)
Fixpoint write (e : expr) : string :=
 (let fix write_suffixed (e : expr) (suffix : string) : string :=
    match e with
    | EId f s => write_id f s ++ suffix
    | EIndex b x => write_suffixed b ("[" ++ write x ++ "]" ++ suffix)
    | _ => suffix
    end in
  match e with
  | ENum s => s
  | ESized neg w b v => write_number neg w b v
  | EId f s => write_id f s
  | ERepeat n => to_string n
  | ECast a => write a
  | EParen x => "(" ++ write x ++ ")"
  | ESigned x => "$signed" ++ "(" ++ write x ++ ")"
  | EUnsigned x => "$unsigned" ++ "(" ++ write x ++ ")"
  | EWidthof s => "(" ++ s ++ ")"
  | EDone s => "(" ++ s ++ ")"
  | ECat x => "{" ++ write x ++ "}"
  | ERep n c => "{" ++ n ++ write c ++ "}"
  | EIndex b x => write_suffixed b ("[" ++ write x ++ "]")
  | ESelect b x n => write_suffixed b ("[" ++ write x ++ "+:" ++ n ++ "]")
  | EField sg b off w =>
      (if sg then "$signed(" else "") ++ write_suffixed b ("[" ++ off ++ "+:" ++ w ++ "]") ++ (if sg then ")" else "")
  | EFieldSel sg b x off n =>
      (if sg then "$signed(" else "") ++ write_suffixed b ("[" ++ ("((" ++ write x ++ ")+(" ++ off ++ "))") ++ "+:" ++ n ++ "]")
      ++ (if sg then ")" else "")
  | EUn o a => utext o ++ write a
  | EBin o l r => write l ++ btext o ++ write r
  | ETern c a b => write c ++ " ? " ++ write a ++ ":" ++ write b
  | EComma a b => write a ++ "," ++ write b
  end)%string.

(** * Verilog *)

(** Trees of Verilog expressions (IEEE 1364-2005, A.8). *)
Inductive vexpr :=
| VWord (s : string)                 (* identifier, macro, number *)
| VIndex (b e : vexpr)               (* b[e] *)
| VSel (b e : vexpr) (n : string)    (* b[e+:n] *)
| VParen (e : vexpr)
| VCall (f : string) (e : vexpr)     (* $signed(e) *)
| VCat (args : vexpr)
| VRep (n : string) (c : vexpr)      (* {n{..}} *)
| VUn (o : uop) (a : vexpr)
| VBin (o : bop) (l r : vexpr)
| VTern (c a b : vexpr)
| VComma (a b : vexpr).

(** The tree the source gives to an expression, in Verilog's constructions. *)
Definition tr_id (f : idform) (s : string) : vexpr :=
  match f with Plain => VWord s | AsSigned => VCall "$signed" (VWord s) | AsUnsigned => VCall "$unsigned" (VWord s) end.
Definition signed_if (sg : bool) (v : vexpr) : vexpr := if sg then VCall "$signed" v else v.
Fixpoint tr (e : expr) : vexpr :=
  match e with
  | ENum s => VWord s
  | ESized neg w b v =>
      let lit := VWord (to_string w ++ "'" ++ String b v)%string in if neg then VUn Neg lit else lit
  | EId f s => tr_id f s
  | ERepeat n => VWord (to_string n)
  | ECast a => tr a
  | EParen x => VParen (tr x)
  | ESigned x => VCall "$signed" (tr x)
  | EUnsigned x => VCall "$unsigned" (tr x)
  | EWidthof s | EDone s => VParen (VWord s)
  | ECat x => VCat (tr x)
  | ERep n c => VRep n (tr c)
  | EIndex b x => VIndex (tr b) (tr x)
  | ESelect b x n => VSel (tr b) (tr x) n
  | EField sg b off w => signed_if sg (VSel (tr b) (VWord off) w)
  | EFieldSel sg b x off n => signed_if sg (VSel (tr b) (VParen (VBin Add (VParen (tr x)) (VParen (VWord off)))) n)
  | EUn o a => VUn o (tr a)
  | EBin o l r => VBin o (tr l) (tr r)
  | ETern c a b => VTern (tr c) (tr a) (tr b)
  | EComma a b => VComma (tr a) (tr b)
  end.

(** Tokens. The operators are those of IEEE 1364-2005, annex A.8.6, and punctuation; with [sv], those of IEEE 1800-2017
    that start like one of the former are added. *)
Inductive tok := TWord (s : string) | TOp (s : string).
Definition ops : list string :=
  ["("; ")"; "["; "]"; "{"; "}"; ","; ":"; "?"; "+:"; "-:"; "->"; "="; "/"; "%";
   "+"; "-"; "*"; "**"; "!"; "~"; "&"; "|"; "^"; "~&"; "~|"; "~^"; "^~"; "&&"; "||"; "=="; "!="; "==="; "!==";
   "<"; ">"; "<="; ">="; "<<"; ">>"; "<<<"; ">>>"].
Definition sv_ops : list string :=
  ["++"; "--"; "&&&"; "+="; "-="; "*="; "/="; "%="; "&="; "|="; "^="; "<<="; ">>="; "<<<="; ">>>="; "::"; ":="; ":/"; "->>";
   "==?"; "!=?"].
Definition is_op (sv : bool) (s : string) : bool := existsb (String.eqb s) ops || sv && existsb (String.eqb s) sv_ops.

(** Can a token go on with a character? *)
Definition ext (sv : bool) (t : tok) (c : ascii) : bool :=
  match t with TWord _ => wordc c | TOp o => is_op sv (o ++ String c "")%string end.
Definition grow (t : tok) (c : ascii) : tok :=
  match t with TWord s => TWord (s ++ String c "")%string | TOp s => TOp (s ++ String c "")%string end.

Definition emit (cur : option tok) (r : option (list tok)) : option (list tok) :=
  match cur, r with Some t, Some l => Some (t :: l) | None, Some l => Some l | _, None => None end.

(** Lexical analysis: the longest token is taken each time (every operator is made of shorter ones, up to the last). *)
Fixpoint lex (sv : bool) (cur : option tok) (s : string) : option (list tok) :=
  match s with
  | EmptyString => emit cur (Some [])
  | String c r =>
      if match cur with Some t => ext sv t c | None => false end
      then match cur with Some t => lex sv (Some (grow t c)) r | None => None end
      else emit cur
             (if Ascii.eqb c " "%char then lex sv None r
              else if wordc c then lex sv (Some (TWord (String c ""))) r
              else if is_op sv (String c "") then lex sv (Some (TOp (String c ""))) r
              else None)
  end.

(** Precedence of the operators, IEEE 1364-2005 table 5-4, from the lowest. All binary operators associate left to right, the
    conditional operator right to left (5.1.2). *)
Definition vlevel (s : string) : option (bop * nat) :=
  match find (fun p => String.eqb (btext (fst p)) s)
    [(LOr, 2); (LAnd, 3); (Or, 4); (Xor, 5); (XnorA, 5); (XnorB, 5); (And, 6); (Eq, 7); (Ne, 7); (CEq, 7); (CNe, 7);
     (Lt, 8); (Le, 8); (Gt, 8); (Ge, 8); (Shl, 9); (Shr, 9); (AShl, 9); (AShr, 9); (Add, 10); (Sub, 10); (Mul, 11)] with
  | Some p => Some p
  | None => None
  end.
Definition vunary (s : string) : option uop :=
  find (fun o => String.eqb (utext o) s) [Neg; LNot; RNand; RNor; RAnd; ROr; RXor; RXnorA; RXnorB; Not].

Definition op_is (s : string) (t : tok) : bool := match t with TOp o => String.eqb o s | TWord _ => false end.

(** A recursive descent parser of Verilog expressions. [n] bounds the depth of the calls. The operand of a unary operator may be
    unary, as in the existing tools. *)
Fixpoint p_args (n : nat) (ts : list tok) : option (vexpr * list tok) :=
  match n with
  | O => None
  | S n =>
      match p_expr n ts with
      | Some (a, t :: r) =>
          if op_is "," t then match p_args n r with Some (b, r') => Some (VComma a b, r') | None => None end
          else Some (a, t :: r)
      | x => x
      end
  end
with p_expr (n : nat) (ts : list tok) : option (vexpr * list tok) :=
  match n with
  | O => None
  | S n =>
      match p_level n 10 ts with
      | Some (c, t :: r) =>
          if op_is "?" t then
            match p_expr n r with
            | Some (a, t' :: r') =>
                if op_is ":" t' then match p_expr n r' with Some (b, r'') => Some (VTern c a b, r'') | None => None end else None
            | _ => None
            end
          else Some (c, t :: r)
      | x => x
      end
  end
(* [k] operators of precedence at least [12 - k] *)
with p_level (n k : nat) (ts : list tok) : option (vexpr * list tok) :=
  match n with
  | O => None
  | S n =>
      match k with
      | O => p_unary n ts
      | S k' => match p_level n k' ts with Some (l, r) => p_loop n k l r | None => None end
      end
  end
with p_loop (n k : nat) (l : vexpr) (ts : list tok) : option (vexpr * list tok) :=
  match n with
  | O => None
  | S n =>
      match ts with
      | TOp s :: r =>
          match vlevel s with
          | Some (o, lv) =>
              if (lv =? 12 - k)%nat
              then match p_level n (pred k) r with Some (x, r') => p_loop n k (VBin o l x) r' | None => None end
              else Some (l, ts)
          | None => Some (l, ts)
          end
      | _ => Some (l, ts)
      end
  end
with p_unary (n : nat) (ts : list tok) : option (vexpr * list tok) :=
  match n with
  | O => None
  | S n =>
      match ts with
      | TOp s :: r =>
          match vunary s with
          | Some o => match p_unary n r with Some (a, r') => Some (VUn o a, r') | None => None end
          | None => p_primary n ts
          end
      | _ => p_primary n ts
      end
  end
with p_primary (n : nat) (ts : list tok) : option (vexpr * list tok) :=
  match n with
  | O => None
  | S n =>
      match ts with
      | TOp s :: r =>
          if String.eqb s "(" then
            match p_expr n r with
            | Some (x, t :: r') => if op_is ")" t then Some (VParen x, r') else None
            | _ => None
            end
          else if String.eqb s "{" then
            match r with
            | TWord m :: t :: r1 =>
                if op_is "{" t then
                  match p_primary n (t :: r1) with
                  | Some (c, t' :: r') => if op_is "}" t' then Some (VRep m c, r') else None
                  | _ => None
                  end
                else
                  match p_args n r with
                  | Some (x, t' :: r') => if op_is "}" t' then Some (VCat x, r') else None
                  | _ => None
                  end
            | _ =>
                match p_args n r with
                | Some (x, t' :: r') => if op_is "}" t' then Some (VCat x, r') else None
                | _ => None
                end
            end
          else None
      | TWord s :: t :: r =>
          if op_is "(" t then
            match p_expr n r with
            | Some (x, t' :: r') => if op_is ")" t' then Some (VCall s x, r') else None
            | _ => None
            end
          else p_suffix n (VWord s) (t :: r)
      | [TWord s] => Some (VWord s, [])
      | [] => None
      end
  end
with p_suffix (n : nat) (b : vexpr) (ts : list tok) : option (vexpr * list tok) :=
  match n with
  | O => None
  | S n =>
      match ts with
      | t :: r =>
          if op_is "[" t then
            match p_expr n r with
            | Some (x, t' :: r') =>
                if op_is "]" t' then p_suffix n (VIndex b x) r'
                else if op_is "+:" t' then
                  match r' with
                  | TWord m :: t'' :: r'' => if op_is "]" t'' then Some (VSel b x m, r'') else None
                  | _ => None
                  end
                else None
            | _ => None
            end
          else Some (b, ts)
      | [] => Some (b, [])
      end
  end.

(** What a Verilog tool reads: the text is cut into tokens and these are parsed as one expression. *)
Definition reads (sv : bool) (text : string) (v : vexpr) : Prop :=
  exists ts n, lex sv None text = Some ts /\ p_expr n ts = Some (v, []).

(** * Conditions on the source *)

(** The operator a text starts with, if any. *)
Fixpoint lead (e : expr) : option uop :=
  match e with
  | EUn o _ => Some o
  | ESized true _ _ _ => Some Neg
  | EBin _ l _ => lead l
  | ETern c _ _ => lead c
  | EComma a _ => lead a
  | _ => None
  end.

(** Operators that become another one when written side by side. *)
Definition clash (sv : bool) (o : bop) (u : uop) : bool :=
  match o, u with
  | And, RAnd => true
  | Or, ROr => true
  | Xor, (Not | RNand | RNor | RXnorB) => true
  | Sub, Neg => sv
  | LAnd, RAnd => sv
  | _, _ => false
  end.

(** No two operators clash, anywhere in the expression. *)
Fixpoint apart (sv : bool) (e : expr) : Prop :=
  match e with
  | ECast x | EParen x | ESigned x | EUnsigned x | ECat x | ERep _ x => apart sv x
  | EIndex b x | ESelect b x _ | EFieldSel _ b x _ _ => apart sv b /\ apart sv x
  | EField _ b _ _ => apart sv b
  | EUn o a => apart sv a /\ (o = Neg -> lead a = Some Neg -> sv = false)
  | EBin o l r => apart sv l /\ apart sv r /\ match lead r with Some u => clash sv o u = false | None => True end
  | ETern c a b => apart sv c /\ apart sv a /\ apart sv b
  | EComma a b => apart sv a /\ apart sv b
  | _ => True
  end.

(** No conditional operator follows another one without parentheses, anywhere in the expression. *)
Fixpoint unchained (e : expr) : Prop :=
  match e with
  | ECast x | EParen x | ESigned x | EUnsigned x | ECat x | ERep _ x => unchained x
  | EIndex b x | ESelect b x _ | EFieldSel _ b x _ _ => unchained b /\ unchained x
  | EField _ b _ _ => unchained b
  | EUn _ a => unchained a
  | EBin _ l r => unchained l /\ unchained r
  | ETern c a b => match c with ETern _ _ _ => False | _ => True end /\ unchained c /\ unchained a /\ unchained b
  | EComma a b => unchained a /\ unchained b
  | _ => True
  end.
