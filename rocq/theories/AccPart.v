(** Accesses to parts of variables: tables, part-selects, bitfields (antlr/silice.g4 337-344), the variables they read and write according to
    determineVIOAccess, and machines made of a loop of states, each a list of assignments. *)
From Coq Require Import List Bool Arith ZArith.
Import ListNotations.
From Verif Require Import FsmModel AccModel.

(** [XAcc]: an access. [AVar]: identifier or member of a group ; [ATab x i]: x[i] ; [APart a off w]: a[off,w] ;
    [ABit a off w]: Field(a).member, the member being [w] bits from bit [off]. *)
Inductive aexp :=
| XC (n : Z)
| XU (f : Z -> Z) (a : aexp)
| XB (f : Z -> Z -> Z) (a b : aexp)
| XAcc (a : acc)
with acc :=
| AVar (x : var)
| ATab (x : var) (i : aexp)
| APart (a : acc) (off : aexp) (w : Z)
| ABit (a : acc) (off w : Z).

(** [determineAccessedVar], src/Algorithm.cpp 5320-5402. *)
Fixpoint accessed (a : acc) : var :=
  match a with AVar x => x | ATab x _ => x | APart a _ _ => accessed a | ABit a _ _ => accessed a end.

(** Variables read by an expression, src/Algorithm.cpp 5406-5726: identifiers of the tree are read, except below a bitfield access where only
    the accessed variable is (5676-5689). *)
Fixpoint reads (e : aexp) : list var :=
  match e with
  | XC _ => []
  | XU _ a => reads a
  | XB _ a b => reads a ++ reads b
  | XAcc a => reads_acc a
  end
with reads_acc (a : acc) : list var :=
  match a with
  | AVar x => [x]
  | ATab x i => x :: reads i
  | APart a off _ => reads_acc a ++ reads off
  | ABit a _ _ => [accessed a]
  end.

(** Assignment, 5440-5470: the accessed variable is written, the expression is read, and the index of a table or the offset of a part-select. *)
Definition lhs_reads (a : acc) : list var :=
  match a with ATab _ i => reads i | APart _ off _ => reads off | _ => [] end.
Definition asg := (acc * aexp)%type.
Definition asg_access (c : asg) : access := (reads (snd c) ++ lhs_reads (fst c), [accessed (fst c)]).

(** Values: a table is a function of the index, other variables use index 0. *)
Definition vals := var -> Z -> Z.
Definition mask (w : Z) : Z := (2 ^ w - 1)%Z.
Definition bits (v off w : Z) : Z := Z.land (Z.shiftr v off) (mask w).
Definition put (v off w u : Z) : Z := Z.lor (Z.ldiff v (Z.shiftl (mask w) off)) (Z.shiftl (Z.land u (mask w)) off).

Fixpoint aeval (s : vals) (e : aexp) : Z :=
  match e with
  | XC n => n
  | XU f a => f (aeval s a)
  | XB f a b => f (aeval s a) (aeval s b)
  | XAcc a => acc_val s a
  end
with acc_val (s : vals) (a : acc) : Z :=
  match a with
  | AVar x => s x 0%Z
  | ATab x i => s x (aeval s i)
  | APart a off w => bits (acc_val s a) (aeval s off) w
  | ABit a off w => bits (acc_val s a) off w
  end.
Definition aupd (s : vals) (x : var) (i v : Z) : vals := fun y j => if Nat.eqb y x && Z.eqb j i then v else s y j.
Fixpoint acc_set (s : vals) (a : acc) (v : Z) : vals :=
  match a with
  | AVar x => aupd s x 0 v
  | ATab x i => aupd s x (aeval s i) v
  | APart a off w => acc_set s a (put (acc_val s a) (aeval s off) w v)
  | ABit a off w => acc_set s a (put (acc_val s a) off w v)
  end.
Fixpoint asgs (l : list asg) (s : vals) : vals :=
  match l with [] => s | (a, e) :: r => asgs r (acc_set s a (aeval s e)) end.

(** A loop of states: [while (1) { l1 ++: l2 ++: ... }]. The graph has one block per state, each followed by the next one. *)
Definition loop_graph (n : nat) : graph := fun b =>
  {| b_ins := []; b_end := ENext (Some (if Nat.eqb (S b) n then 0 else S b)); b_state := true; b_noskip := true |}.
Definition loop_access (p : list (list asg)) : option acct :=
  access_heads (loop_graph (length p)) (fun b => map asg_access (nth b p [])) 10 (seq 0 (length p)) acct0.
(** What the variable becomes. [table]: which variables are tables. *)
Definition loop_usage (table : var -> bool) (p : list (list asg)) (x : var) : option usage :=
  do t <- loop_access p; Some (determine_usage (table x) t x).

(** Values at the beginning of cycle [n], starting from [s]: every variable keeps its value. *)
Fixpoint loop_run (p : list (list asg)) (n : nat) (s : vals) : vals :=
  match n with O => s | S n' => asgs (nth (n' mod length p) p []) (loop_run p n' s) end.
(** The same, variables that are made temporary lose their value between cycles: they are set to the initial value at the beginning of each cycle
    (src/Algorithm.cpp 8272-8296). Outputs are always registers (6193-6210). *)
Definition drop (init : vals) (temp : var -> bool) (s : vals) : vals := fun x i => if temp x then init x i else s x i.
Definition is_temp (o : option usage) : bool := match o with Some UTemp => true | _ => false end.
Fixpoint hw_run (out table : var -> bool) (p : list (list asg)) (init : vals) (n : nat) : vals :=
  match n with
  | O => init
  | S n' => asgs (nth (n' mod length p) p []) (drop init (fun x => negb (out x) && is_temp (loop_usage table p x)) (hw_run out table p init n'))
  end.
