(** What is given to the formal verification tools: assumptions on reset, run and done, assertions placed in the states, covers, checks on past states
    and stable expressions. *)
From Coq Require Import List Bool Arith ZArith.
Import ListNotations.
From Verif Require Import FsmModel FsmRun RegModel WidthModel.

(** * Checks in the program: #assert, #assume, #restrict, #cover *)
(** gather, src/Algorithm.cpp 4112-4115: the instruction is pushed in the current block as an assignment is. writeBlock, 8597-8612, and writeAssert,
    writeAssume, writeRestrict, writeCover, 7614-7690: it is written at its place in the states, the expression rewritten as the right hand side of an
    assignment is. It is thus modelled as an assignment to a variable [g] that nothing else uses: it becomes 1 when the expression is false. The
    variable is 0 at the beginning of each cycle ([ginp] below), so that it tells whether some check has been false during the cycle. *)
Definition chkf (o v : Z) : Z := if truth v then o else 1%Z.
Definition chk (g : var) (e : expr) : stmt := SAssign g (EB chkf (EV g) e).
(** #cover(e): reached when [e] is true. *)
Definition cov (g : var) (e : expr) : stmt := chk g (EU (fun v => if truth v then 0%Z else 1%Z) e).

(** * The executions considered by the tools *)
(** An execution: inputs, reset, run, and the contents of all registers at the beginning, which are arbitrary. *)
Record trace := { t_inp : nat -> store -> store; t_reset : nat -> bool; t_run : nat -> bool; t_0 : mod_st }.

Section Harness.
  (** The algorithm, its state machine, its registers, its always_before block; [ga]: variable of the assertions, [gm]: of the assumptions and
      restrictions. Checks in always blocks are not modelled. *)
  Variables (a : alg) (m : fsm) (vr : var -> option upd_rhs) (pre : nat -> store -> store) (ga gm : var).

  Definition ginp (inp : nat -> store -> store) (n : nat) (q : store) : store := upd (upd (inp n q) ga 0) gm 0.
  (** State of the registers at the beginning of cycle [n], values and index computed during the cycle. [None]: the index is in the default case. *)
  Definition at_cycle (t : trace) (n : nat) : option mod_st := mod_run a m vr (ginp (t_inp t)) pre (t_reset t) (t_run t) n (t_0 t).
  Definition in_cycle (t : trace) (n : nat) : option (store * nat) :=
    do s <- at_cycle t n; cycle m (ginp (t_inp t) n (m_q s)) (pre n (ginp (t_inp t) n (m_q s))) (m_idx s).
  (** The signal done, 10051-10078, without pipelines. *)
  Definition done (s : mod_st) : bool := Nat.eqb (m_idx s) 0 && (if a_auto a then m_auto s else true).
  (** $initstate || reset, 7631. *)
  Definition quiet (t : trace) (n : nat) : bool := Nat.eqb n 0 || t_reset t n.
  (** Assumptions on cycle [n]: reset in the first cycle, 10490-10493; running or done, 10494-10500; never in the default case of the states, 8406-8414;
      the assumptions of the program, 7652, 7671. *)
  Definition assumed (t : trace) (n : nat) : bool :=
    match at_cycle t n, in_cycle t n with
    | Some s, Some (D, _) =>
        (negb (Nat.eqb n 0) || t_reset t 0) &&
        (Nat.eqb n 0 || (if callable a then t_run t n || done s else done s)) &&
        (quiet t n || Z.eqb (D gm) 0)
    | _, _ => false
    end.
  (** The first [n]+1 cycles of [t] are considered. *)
  Definition considered (t : trace) (n : nat) : Prop := forall k, k <= n -> assumed t k = true.
  (** An assertion of the program fails in cycle [n], 7631. *)
  Definition fails (t : trace) (n : nat) : bool := negb (quiet t n) && match in_cycle t n with Some (D, _) => negb (Z.eqb (D ga) 0) | None => false end.
  Definition reported : Prop := exists t n, considered t n /\ fails t n = true.
  (** #cover has no guard, 7689: [ga] stands for the variable of a cover. *)
  Definition covers (t : trace) (n : nat) : bool := match in_cycle t n with Some (D, _) => negb (Z.eqb (D ga) 0) | None => false end.
  Definition covered_by_tools : Prop := exists t n, considered t n /\ covers t n = true.
End Harness.

(** * #assertstable, #assumestable, #wasin *)
(** They are not pushed in a block: gatherPastCheck, gatherStableCheck, src/Algorithm.cpp 2141-2170, 4116-4118, record the current block, or nothing when
    [hasNoFSM], 4612-4629. At that time no state is numbered, so that [hasNoFSM] tells whether the first block has no instruction and no end. *)
Definition no_fsm_yet (s : gst) : bool :=
  block_empty (g_blk s 0) && match b_end (g_blk s 0) with ENone => true | _ => false end.
(** Where the check is written: between two lists of instructions, in the body of a loop, in a conditional. *)
Inductive place := Here (l1 l2 : list stmt) | InWhile (l1 : list stmt) (e : expr) (c : place) (l2 : list stmt) | InIf (l1 : list stmt) (e : expr) (c : place) (l2 : list stmt).
Fixpoint fill (c : place) : list stmt :=
  match c with
  | Here l1 l2 => l1 ++ l2
  | InWhile l1 e c l2 => l1 ++ SWhile e (fill c) :: l2
  | InIf l1 e c l2 => l1 ++ SIf e (fill c) :: l2
  end.
(** The current block at that place, and the blocks gathered so far: gatherWhile, 2031-2064, gatherIfThen, 3130-3153, gatherBlock, 1934-1948, as in [gather]. *)
Fixpoint gather_to (fuel : nat) (brk : option nat) (c : place) (cur : nat) (s : gst) : option (nat * gst) :=
  match c with
  | Here l1 _ => gather_list fuel brk l1 cur s
  | InWhile l1 e c _ =>
      do (cur, s) <- gather_list fuel brk l1 cur s;
      let (h, s1) := add_block s in
      let s2 := st_next s1 cur h in
      let (it, s3) := add_block s2 in
      let (af, s4) := add_block s3 in
      let (nb, s5) := add_block s4 in
      gather_to fuel (Some af) c nb (st_next s5 it nb)
  | InIf l1 e c _ =>
      do (cur, s) <- gather_list fuel brk l1 cur s;
      let (ib, s1) := add_block s in
      let (eb, s2) := add_block s1 in
      let (nb, s3) := add_block s2 in
      gather_to fuel brk c nb (st_next s3 ib nb)
  end.
(** [unit]: algorithm block of a unit, as in [gather_body]. *)
Definition check_block (fuel : nat) (unit : bool) (c : place) : option (option nat) :=
  do (b, s) <- (if unit then let (nb, s1) := add_block gst0 in gather_to fuel None c nb (st_next s1 0 nb) else gather_to fuel None c 0 gst0);
  Some (if no_fsm_yet s then None else Some b).
(** The constant the index is compared to, 8092, 8117: the number of the block, None standing for -1 (not a state, or never reached), or for the
    condition 0 when no block is recorded. *)
Definition check_index (fuel : nat) (unit : bool) (c : place) : option (option nat) :=
  do b <- check_block fuel unit c;
  do s <- gather_body fuel unit (fill c);
  do (g, r) <- generate_states fuel s;
  Some (match b with None => None | Some x => r_sid r x end).
(** The register compared contains toFSMState of the current state (8034-8036, 4483-4490), the constant is the number of the state. *)
Definition selected (oneHot : bool) (idx : nat) (c : option nat) : bool :=
  match c, toFSMState oneHot (Z.of_nat idx) with Some i, Some q => Z.eqb q (Z.of_nat i) | _, _ => false end.

Section Stable.
  Variables (a : alg) (m : fsm) (vr : var -> option upd_rhs) (pre : nat -> store -> store) (ga gm : var) (oneHot : bool).
  Notation at_cycle := (at_cycle a m vr pre ga gm).
  (** The condition under which the check is made at the end of cycle [n], 8117-8122. *)
  Definition checked (t : trace) (c : option nat) (n : nat) : bool :=
    match at_cycle t n with
    | Some s => selected oneHot (m_idx s) c && negb (t_reset t n) && (if callable a then t_run t n else true) && negb (Nat.eqb n 0)
    | None => false
    end.
  (** #assertstable(e), 8123: [e] on the registers and inputs, compared with the previous cycle. *)
  Definition value (t : trace) (e : expr) (n : nat) : option Z := option_map (fun s => eval (ginp ga gm (t_inp t) n (m_q s)) e) (at_cycle t n).
  Definition oz_eqb (x y : option Z) : bool := match x, y with Some u, Some v => Z.eqb u v | _, _ => false end.
  Definition stable_fails (t : trace) (c : option nat) (e : expr) (n : nat) : bool :=
    checked t c n && negb (oz_eqb (value t e n) (value t e (n - 1))).
  (** #wasin(label, k), 8098: the index [k] cycles before, arbitrary before the beginning; [target]: number of the state of the label. *)
  Definition past_fails (t : trace) (c target : option nat) (k n : nat) : bool :=
    checked t c n && match (if n <? k then None else at_cycle t (n - k)) with Some s => negb (selected oneHot (m_idx s) target) | None => true end.
End Stable.
