(** Registers: initialization, update at the clock edge, index of the state machine, delayed assignments. *)
From Coq Require Import List Bool Arith ZArith.
Import ListNotations.
From Verif Require Import FsmModel FsmRun.

(** * Update of a register, writeVarFlipFlopUpdate, src/Algorithm.cpp 7938-7988, variables outside of pipelines *)
(** What is known of a variable: value of the initializer if any, whether it is a startup initializer "uint8 a(1)" (init_at_startup),
    and whether it is declared "uninitialized" (do_not_initialize). src/Algorithm.cpp 614-670. *)
Record vnfo := { v_init : option Z; v_startup : bool; v_noinit : bool }.
(** What is known of the algorithm: has a state machine (not hasNoFSM, 4612-4629), starts by itself (m_AutoRun). *)
Record alg := { a_fsm : bool; a_auto : bool }.
(** [isNotCallable], src/Algorithm.cpp 4693-4702. *)
Definition callable (a : alg) : bool := negb (a_auto a) && a_fsm a.

(** Text of the condition on which the register is initialized, 7940-7949. *)
Inductive icond := NoCond | OnReset | OnResetOrNotRun.
Definition init_cond (a : alg) (v : vnfo) : icond :=
  if v_startup v || v_noinit v then NoCond else if callable a then OnResetOrNotRun else OnReset.
(** Text assigned to the register, 7969-7976: [q <= (cond) ? init : d] or [q <= d]. [None]: assertion in varInitValue (src/Blueprint.cpp 202). *)
Inductive upd_rhs := Keep | Mux (c : icond) (init : Z).
Definition reg_rhs (a : alg) (v : vnfo) : option upd_rhs :=
  match v_init v with
  | None => if v_noinit v then Some Keep else None
  | Some i => match init_cond a v with NoCond => Some Keep | c => Some (Mux c i) end
  end.

(** Value of the register after the clock edge. [reset], [run]: signals; [d]: value of the d side at the end of the cycle. *)
Definition cond_val (c : icond) (reset run : bool) : bool :=
  match c with NoCond => false | OnReset => reset | OnResetOrNotRun => reset || negb run end.
Definition reg_edge (r : upd_rhs) (reset run : bool) (d : Z) : Z :=
  match r with Keep => d | Mux c i => if cond_val c reset run then i else d end.

(** Value when the circuit is powered: writeFlipFlopDeclarations, 7851-7860. [None]: undefined. [zero]: option reg_init_zero. *)
Definition power_up (zero : bool) (v : vnfo) : option Z :=
  match v_init v with
  | Some i => if v_startup v then Some i else if zero then Some 0%Z else None
  | None => if zero then Some 0%Z else None
  end.

(** A register over time: [d n q] is the value computed during cycle [n] when the register contains [q]. *)
Fixpoint reg_run (r : upd_rhs) (reset run : nat -> bool) (d : nat -> Z -> Z) (n : nat) (q0 : Z) : Z :=
  match n with O => q0 | S n' => let q := reg_run r reset run d n' q0 in reg_edge r (reset n') (run n') (d n' q) end.

(** * Index of the state machine, writeFlipFlopUpdates, src/Algorithm.cpp 8028-8046, and fsmNextState, 4418-4428. *)
Definition next_state (a : alg) (auto run : bool) (entry d : nat) : nat :=
  if a_auto a then (if negb auto then entry else d) else (if negb run then entry else d).
Definition idx_edge (a : alg) (reset auto run : bool) (entry d : nat) : nat := if reset then 0 else next_state a auto run entry d.
(** The register autorun, 8044-8046. *)
Definition auto_edge (reset : bool) : bool := negb reset.

(** * The module generated for an algorithm with a state machine [m]: registers of the variables, index, autorun.
    [vr x]: text of the update of the register [x], [x] not being a register when it is [None]: inputs, temporaries.
    [inp n q]: values at the beginning of cycle [n], [pre n]: always_before block. *)
Record mod_st := { m_q : store; m_idx : nat; m_auto : bool }.
(** The clock edge on all the registers. Every condition is false without reset and while running (mod_edge_at in RegProps). *)
Definition mod_edge (vr : var -> option upd_rhs) (reset run : bool) (d : store) : store :=
  if reset || negb run then (fun x => match vr x with Some r => reg_edge r reset run (d x) | None => d x end) else d.
Definition mod_step (a : alg) (m : fsm) (vr : var -> option upd_rhs) (inp pre : nat -> store -> store) (reset run : nat -> bool) (n : nat) (s : mod_st) : option mod_st :=
  let q := inp n (m_q s) in
  do (d, i) <- cycle m q (pre n q) (m_idx s);
  Some {| m_q := mod_edge vr (reset n) (run n) d;
          m_idx := idx_edge a (reset n) (m_auto s) (run n) (f_entry m) i;
          m_auto := auto_edge (reset n) |}.
Fixpoint mod_run (a : alg) (m : fsm) (vr : var -> option upd_rhs) (inp pre : nat -> store -> store) (reset run : nat -> bool) (n : nat) (s : mod_st) : option mod_st :=
  match n with O => Some s | S n' => do s' <- mod_run a m vr inp pre reset run n' s; mod_step a m vr inp pre reset run n' s' end.

(** * Always assignments := and ::=, writeBlock, src/Algorithm.cpp 8524-8562, gatherAlwaysAssigned, 3260-3281. *)
(** [ASet x e]: x := e ; [ADelay x e t]: x ::= e where t is the variable created for it (delayedName 3253-3257).
    [APartDelay]: ::= on a table, part or bitfield: IDENTIFIER() is null and dereferenced (8546). *)
Inductive alw := ASet (x : var) (e : expr) | ADelay (x : var) (e : expr) (t : var) | APartDelay.
(** The text of an expression: reads the d side of variables assigned before, the q side of others (rewriteIdentifier, 1634-1650). *)
Definition val_of (Q D : store) (deps : list var) (y : var) : Z := if memb y deps then D y else Q y.
(** Outcome: the values, a compile error (the assigned variable depends on its own d side: updateAndCheckDependencies, 4820-4838;
    only direct self dependencies are modelled here, see DepModel for the closure), or undefined behaviour of the compiler. *)
Inductive ares {A} := AOk (r : A) | ARej | ACrash.
Arguments ares : clear implicits.
Definition abind {A B} (r : ares A) (f : A -> ares B) : ares B := match r with AOk a => f a | ARej => ARej | ACrash => ACrash end.
Definition self_d (x : var) (e : expr) (deps : list var) : bool := memb x (evars e) && memb x deps.
Definition aexec (Q : store) (a : alw) (s : store * list var) : ares (store * list var) :=
  let (D, deps) := s in
  match a with
  | ASet x e => if self_d x e deps then ARej else AOk (upd D x (eval (val_of Q D deps) e), x :: deps)
  | ADelay x e t =>
      if self_d x e deps then ARej else
      let D1 := upd D x (D t) in                                   (* lvalue = d_tmp; *)
      AOk (upd D1 t (eval (val_of Q D1 deps) e), x :: deps)        (* d_tmp = rvalue; *)
  | APartDelay => ACrash
  end.
Fixpoint aexecs (Q : store) (l : list alw) (s : store * list var) : ares (store * list var) :=
  match l with [] => AOk s | a :: r => abind (aexec Q a s) (aexecs Q r) end.
(** One cycle: D = Q (8189-8197), always block, then the rest of the algorithm and inputs. *)
Fixpoint arun (l : list alw) (rest : nat -> store -> store) (n : nat) (q0 : store) : ares store :=
  match n with O => AOk q0 | S n' => abind (arun l rest n' q0) (fun q => abind (aexecs q l (q, [])) (fun s => AOk (rest n' (fst s)))) end.
