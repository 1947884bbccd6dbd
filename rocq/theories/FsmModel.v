(** From instruction lists to a state machine: gathering blocks, numbering states, writing the states as Verilog. *)
From Coq Require Import List Bool Arith ZArith.
Import ListNotations.

(** * Expressions and instructions *)
Definition var := nat.
Definition store := var -> Z.

(** Expressions read variables; operators are arbitrary functions. *)
Inductive expr :=
| EC (n : Z)
| EV (x : var)
| EU (f : Z -> Z) (a : expr)
| EB (f : Z -> Z -> Z) (a b : expr).

Fixpoint eval (s : store) (e : expr) : Z :=
  match e with
  | EC n => n
  | EV x => s x
  | EU f a => f (eval s a)
  | EB f a b => f (eval s a) (eval s b)
  end.

Definition upd (s : store) (x : var) (v : Z) : store := fun y => if Nat.eqb y x then v else s y.
Definition truth (z : Z) : bool := negb (Z.eqb z 0).

(** Instructions held by a block (t_instr_nfo): assignments, and [return] written in an algorithm
    (src/Algorithm.cpp 8758-8766). *)
Inductive instr := IAssign (x : var) (e : expr) | IReturn.

(** * Source programs: antlr/silice.g4 368-390, 443-457.
    [SJoin d rb]: '(..) <- inst' on an instance whose done signal is [d]; [rb] are the assignments reading back the outputs. *)
Inductive stmt :=
| SAssign (x : var) (e : expr)
| SBlock (l : list stmt)
| SIf (e : expr) (l : list stmt)
| SIfElse (e : expr) (l1 l2 : list stmt)
| SSwitch (e : expr) (cases : list (option Z * list stmt))    (* None: default *)
| SWhile (e : expr) (l : list stmt)
| SBreak
| SStep                                                       (* ++: *)
| SLabel (n : nat)
| SGoto (n : nat)
| SReturn
| SJoin (d : expr) (rb : list (var * expr)).

(** * Blocks: t_combinational_block and its end actions, src/Algorithm.h 411-632. Pipelines are not modelled.
    [ENext None]: unresolved forward jump. *)
Inductive endact :=
| ENone
| ENext (n : option nat)
| EIf (test : expr) (if_next : nat) (if_stateless : bool) (if_trail : nat)
      (else_next : nat) (else_stateless : bool) (else_trail : nat) (after : nat)
| ESwitch (test : expr) (cases : list (option Z * nat)) (after : nat)
| EWhile (test : expr) (iteration after : nat)
| EWait (done : expr) (waiting next : nat)
  (* the caller id register, the register it is saved into when the caller is a subroutine, the id of the call *)
| ECall (caller : var) (save : option var) (cid : Z) (go_to return_to : nat)
  (* the callers: id, block to return to, register the caller id is restored from *)
| ERet (caller : var) (rets : list (Z * nat * option var)).

Record blk := { b_ins : list instr; b_end : endact; b_state : bool; b_noskip : bool }.
Definition graph := nat -> blk.
Definition blk0 : blk := {| b_ins := []; b_end := ENone; b_state := false; b_noskip := false |}.

Definition gset (g : graph) (b : nat) (k : blk) : graph := fun x => if Nat.eqb x b then k else g x.
Definition set_end (g : graph) (b : nat) (e : endact) : graph :=
  gset g b {| b_ins := b_ins (g b); b_end := e; b_state := b_state (g b); b_noskip := b_noskip (g b) |}.
Definition set_state (g : graph) (b : nat) (s : bool) : graph :=
  gset g b {| b_ins := b_ins (g b); b_end := b_end (g b); b_state := s; b_noskip := b_noskip (g b) |}.
Definition set_noskip (g : graph) (b : nat) : graph :=
  gset g b {| b_ins := b_ins (g b); b_end := b_end (g b); b_state := b_state (g b); b_noskip := true |}.
Definition add_ins (g : graph) (b : nat) (i : list instr) : graph :=
  gset g b {| b_ins := b_ins (g b) ++ i; b_end := b_end (g b); b_state := b_state (g b); b_noskip := b_noskip (g b) |}.

(** getChildren, src/Algorithm.h 424-528. *)
Definition children (e : endact) : list (option nat) :=
  match e with
  | ENone => []
  | ENext n => [n]
  | EIf _ i _ _ l _ _ a => [Some i; Some l; Some a]
  | ESwitch _ cs a => map (fun c => Some (snd c)) cs ++ [Some a]
  | EWhile _ i a => [Some i; Some a]
  | EWait _ w n => [Some w; Some n]
  | ECall _ _ _ g _ => [Some g]
  | ERet _ rs => map (fun r => Some (snd (fst r))) rs
  end.

(** [isStateLessGraph], src/Algorithm.cpp 2854-2887: exploration with a queue. [None]: not enough fuel. *)
Definition is_call (e : endact) : bool := match e with ECall _ _ _ _ _ => true | _ => false end.
Definition memb (x : nat) (l : list nat) : bool := existsb (Nat.eqb x) l.

Fixpoint somes (l : list (option nat)) : option (list nat) :=
  match l with
  | [] => Some []
  | None :: _ => None
  | Some x :: r => match somes r with Some r' => Some (x :: r') | None => None end
  end.

Fixpoint stateless (fuel : nat) (g : graph) (visited q : list nat) : option bool :=
  match q with
  | [] => Some true
  | cur :: q' =>
      match fuel with
      | O => None
      | S f =>
          if b_state (g cur) then Some false
          else if is_call (b_end (g cur)) then Some false
          else
            let visited' := cur :: visited in
            match somes (children (b_end (g cur))) with
            | None => Some false       (* an unresolved jump among the children *)
            | Some cs => stateless f g visited' (q' ++ filter (fun c => negb (memb c visited')) cs)
            end
      end
  end.

(** * Gathering. The state of the gathering: next block id, blocks, lastBlock of the fsm, known labels, forward jumps. *)
Record gst := { g_next : nat; g_blk : graph; g_last : nat; g_lbl : list (nat * nat); g_fwd : list (nat * nat) }.

(** [addBlock], src/Algorithm.cpp 375-415. *)
Definition add_block (s : gst) : nat * gst :=
  (g_next s, {| g_next := S (g_next s); g_blk := gset (g_blk s) (g_next s) blk0; g_last := g_next s; g_lbl := g_lbl s; g_fwd := g_fwd s |}).

Definition upd_blk (s : gst) (g : graph) : gst :=
  {| g_next := g_next s; g_blk := g; g_last := g_last s; g_lbl := g_lbl s; g_fwd := g_fwd s |}.
Definition st_end (s : gst) (b : nat) (e : endact) : gst := upd_blk s (set_end (g_blk s) b e).
Definition st_next (s : gst) (b n : nat) : gst := st_end s b (ENext (Some n)).
Definition st_state (s : gst) (b : nat) (v : bool) : gst := upd_blk s (set_state (g_blk s) b v).
Definition st_last (s : gst) (b : nat) : gst :=
  {| g_next := g_next s; g_blk := g_blk s; g_last := b; g_lbl := g_lbl s; g_fwd := g_fwd s |}.

Fixpoint assoc (k : nat) (l : list (nat * nat)) : option nat :=
  match l with [] => None | (a, b) :: r => if Nat.eqb a k then Some b else assoc k r end.

Definition obind {A B} (o : option A) (f : A -> option B) : option B := match o with Some a => f a | None => None end.
Notation "'do' x <- o ; r" := (obind o (fun x => r)) (at level 200, x pattern, right associativity).

(** [gather], src/Algorithm.cpp 3875-4135, one case per instruction. [brk]: break_to of the context. [None]: error, or not enough fuel
    for [stateless]. *)
Fixpoint gather (fuel : nat) (brk : option nat) (st : stmt) (cur : nat) (s : gst) {struct st} : option (nat * gst) :=
  let gseq := (fix gseq (brk : option nat) (l : list stmt) (cur : nat) (s : gst) : option (nat * gst) :=
    match l with
    | [] => Some (cur, s)
    | x :: r => do (c, s') <- gather fuel brk x cur s; gseq brk r c s'
    end) in
  (* gatherBlock, 1934-1948 *)
  let gblock := fun brk l cur s =>
    let (nb, s1) := add_block s in
    let s2 := st_next s1 cur nb in
    do (a, s3) <- gseq brk l nb s2;
    let (nx, s4) := add_block s3 in
    Some (nx, st_next s4 a nx) in
  match st with
  | SAssign x e => Some (cur, upd_blk s (add_ins (g_blk s) cur [IAssign x e]))
  | SReturn => Some (cur, upd_blk s (add_ins (g_blk s) cur [IReturn]))       (* 2765-2781, outside of subroutines *)
  | SBlock l => gblock brk l cur s
  | SIf e l =>                                                               (* gatherIfThen, 3130-3153 *)
      let (ib, s1) := add_block s in
      let (eb, s2) := add_block s1 in
      do (ia, s3) <- gblock brk l ib s2;
      let (af, s4) := add_block s3 in
      let s5 := st_next (st_next s4 ia af) eb af in
      do fl <- stateless fuel (g_blk s5) [] [ib];
      Some (af, st_end s5 cur (EIf e ib fl ia eb true eb af))
  | SIfElse e l1 l2 =>                                                       (* gatherIfElse, 3097-3126 *)
      let (ib, s1) := add_block s in
      let (eb, s2) := add_block s1 in
      do (ia, s3) <- gblock brk l1 ib s2;
      do (ea, s4) <- gblock brk l2 eb s3;
      let (af, s5) := add_block s4 in
      let s6 := st_next (st_next s5 ia af) ea af in
      do fi <- stateless fuel (g_blk s6) [] [ib];
      do fe <- stateless fuel (g_blk s6) [] [eb];
      Some (af, st_end s6 cur (EIf e ib fi ia eb fe ea af))
  | SSwitch e cs =>                                                          (* gatherSwitchCase, 3157-3191; onehot not modelled *)
      let (af, s1) := add_block s in
      let gcases := (fix gcases (cs : list (option Z * list stmt)) (s : gst) : option (list (option Z * nat) * gst) :=
        match cs with
        | [] => Some ([], s)
        | (v, l) :: r =>
            let (cb, s1) := add_block s in
            do (ca, s2) <- gblock brk l cb s1;
            do (bs, s3) <- gcases r (st_next s2 ca af);
            Some ((v, cb) :: bs, s3)
        end) in
      do (bs, s2) <- gcases cs s1;
      let s3 := st_end s2 cur (ESwitch e bs af) in
      do fl <- (fix all (bs : list (option Z * nat)) : option bool :=
        match bs with
        | [] => Some true
        | (_, b) :: r => do f1 <- stateless fuel (g_blk s3) [] [b]; do f2 <- all r; Some (f1 && f2)
        end) bs;
      Some (af, st_state s3 af (negb fl))
  | SWhile e l =>                                                            (* gatherWhile, 2031-2064 *)
      let (h, s1) := add_block s in
      let s2 := st_next s1 cur h in
      let (it, s3) := add_block s2 in
      let (af, s4) := add_block s3 in
      do (il, s5) <- gblock (Some af) l it s4;
      let s6 := st_next (st_last s5 af) il h in
      Some (af, st_state (st_end s6 h (EWhile e it af)) h true)
  | SBreak =>                                                                (* gatherBreakLoop, 2004-2027 *)
      match brk with
      | None => None
      | Some t =>
          let s1 := st_state (st_next s cur t) t true in
          let (nb, s2) := add_block s1 in
          Some (nb, s2)
      end
  | SStep =>                                                                 (* splitOrContinueBlock, 1952-1981 *)
      let (b, s1) := add_block s in
      Some (b, st_next (upd_blk s1 (set_noskip (set_state (g_blk s1) b true) b)) cur b)
  | SLabel n =>
      match assoc n (g_lbl s) with
      | Some _ => None
      | None =>
          let (b, s1) := add_block s in
          let s2 := {| g_next := g_next s1; g_blk := g_blk s1; g_last := g_last s1; g_lbl := (n, b) :: g_lbl s1; g_fwd := g_fwd s1 |} in
          Some (b, st_next s2 cur b)
      end
  | SGoto n =>                                                               (* gatherJump, 2744-2763 *)
      let s1 := match assoc n (g_lbl s) with
                | None =>
                    let s' := st_end s cur (ENext None) in
                    {| g_next := g_next s'; g_blk := g_blk s'; g_last := g_last s'; g_lbl := g_lbl s'; g_fwd := (n, cur) :: g_fwd s' |}
                | Some b => st_state (st_next s cur b) b true
                end in
      Some (add_block s1)
  | SJoin d rb =>                                                            (* gatherJoinExec, 2823-2850 *)
      let (w, s1) := add_block s in
      let s2 := st_next (st_state s1 w true) cur w in
      let (nx, s3) := add_block s2 in
      let s4 := st_end (st_state s3 nx true) w (EWait d w nx) in
      Some (nx, upd_blk s4 (add_ins (g_blk s4) nx (map (fun r => IAssign (fst r) (snd r)) rb)))
  end.

Definition gather_list (fuel : nat) : option nat -> list stmt -> nat -> gst -> option (nat * gst) :=
  fix gseq (brk : option nat) (l : list stmt) (cur : nat) (s : gst) : option (nat * gst) :=
    match l with
    | [] => Some (cur, s)
    | x :: r => do (c, s') <- gather fuel brk x cur s; gseq brk r c s'
    end.

(** [resolveForwardJumpRefs], src/Algorithm.cpp 4138-4168. *)
Fixpoint resolve (lbl : list (nat * nat)) (fwd : list (nat * nat)) (g : graph) : option graph :=
  match fwd with
  | [] => Some g
  | (n, from) :: r =>
      match assoc n lbl with
      | None => None
      | Some b => resolve lbl r (set_state (set_end g from (ENext (Some b))) b true)
      end
  end.

(** [gatherBody], src/Algorithm.cpp 6474-6498. The block _top is a state. [unit]: body of an algorithm block of a unit (4029-4046), otherwise
    body of an algorithm (3939-3957). *)
Definition gst0 : gst := {| g_next := 1; g_blk := set_state (fun _ => blk0) 0 true; g_last := 0; g_lbl := []; g_fwd := [] |}.

Definition gather_body (fuel : nat) (unit : bool) (p : list stmt) : option gst :=
  do (c, s) <- (if unit then gather fuel None (SBlock p) 0 gst0 else gather_list fuel None p 0 gst0);
  do g <- resolve (g_lbl s) (g_fwd s) (g_blk s);
  Some (upd_blk s g).

(** * States *)
(** [blockIsEmpty], src/Algorithm.cpp 4529-4568 (declarations with initializers and expression catchers not modelled). *)
Definition block_empty (b : blk) : bool := match b_ins b with [] => true | _ => false end.

(** The loop of [fastForward], src/Algorithm.cpp 4572-4608. [None]: not enough fuel, or an unresolved jump. *)
Fixpoint ff_loop (fuel : nat) (g : graph) (last cur : nat) : option nat :=
  match fuel with
  | O => None
  | S f =>
      if negb (block_empty (g cur)) then Some last
      else match b_end (g cur) with
           | ENext (Some n) =>
               if b_noskip (g n) then Some last
               else ff_loop f g (if b_state (g n) then n else last) n
           | ENext None => None
           | _ => Some last
           end
  end.
Definition fast_forward (fuel : nat) (g : graph) (b : nat) : option nat :=
  if b_noskip (g b) then Some b else ff_loop fuel g b b.

(** [renumberStates], src/Algorithm.cpp 4284-4340. state_id and parent_state_id: [None] is -1. *)
Record rst := { r_sid : nat -> option nat; r_par : nat -> option nat; r_max : nat; r_vis : list nat }.

Definition fset {A} (f : nat -> A) (k : nat) (v : A) : nat -> A := fun x => if Nat.eqb x k then v else f x.

Fixpoint push_children (ff : nat) (g : graph) (p : option nat) (cs : list (option nat)) (q : list (nat * option nat)) (r : rst)
  : option (list (nat * option nat) * rst) :=
  match cs with
  | [] => Some (q, r)
  | None :: _ => None
  | Some c :: cs' =>
      do c' <- (if b_state (g c) then fast_forward ff g c else Some c);
      if memb c' (r_vis r) then push_children ff g p cs' q r
      else match p with
           | None => None     (* assertion *)
           | Some _ =>
               push_children ff g p cs' (q ++ [(c', p)])
                 {| r_sid := r_sid r; r_par := fset (r_par r) c' p; r_max := r_max r; r_vis := c' :: r_vis r |}
           end
  end.

Fixpoint renumber_loop (fuel ff : nat) (g : graph) (q : list (nat * option nat)) (r : rst) : option rst :=
  match q with
  | [] => Some r
  | (b, p) :: q' =>
      match fuel with
      | O => None
      | S f =>
          if b_state (g b) then
            match r_sid r b with
            | Some _ => None   (* assertion *)
            | None =>
                let id := r_max r in
                do (q2, r2) <- push_children ff g (Some id) (children (b_end (g b))) q'
                  {| r_sid := fset (r_sid r) b (Some id); r_par := fset (r_par r) b (Some id); r_max := S id; r_vis := r_vis r |};
                renumber_loop f ff g q2 r2
            end
          else
            do (q2, r2) <- push_children ff g p (children (b_end (g b))) q' r;
            renumber_loop f ff g q2 r2
      end
  end.

Definition renumber (fuel : nat) (g : graph) : option rst :=
  renumber_loop fuel fuel g [(0, None)] {| r_sid := fun _ => None; r_par := fun _ => None; r_max := 1; r_vis := [0] |}.

(** [preventIfElseCodeDup], src/Algorithm.cpp 4182-4222; [n]: number of blocks. *)
Definition dead (r : rst) (b : nat) : bool := match r_par r b with None => true | Some _ => false end.
Definition unreachable (g : graph) (r : rst) (b : nat) : bool :=
  (b_state (g b) && match r_sid r b with None => true | Some _ => false end) || dead r b.

Fixpoint prevent (r : rst) (unr : nat -> bool) (bs : list nat) (g : graph) (changed : bool) : option (graph * bool) :=
  match bs with
  | [] => Some (g, changed)
  | b :: bs' =>
      if unr b then prevent r unr bs' g changed
      else match b_end (g b) with
           | EIf _ _ fi it _ fe et af =>
               if b_state (g af) then prevent r unr bs' g changed
               else
                 let di := dead r it in
                 let de := dead r et in
                 if (di && fi) || (de && fe) then None   (* assertions *)
                 else
                   let v := (negb di && negb fi) || (negb de && negb fe) || (di && de) in
                   prevent r unr bs' (set_state g af v) (changed || v)
           | _ => prevent r unr bs' g changed
           end
  end.

(** [generateStates], src/Algorithm.cpp 4349-4361, on the root fsm. *)
Definition generate_states (fuel : nat) (s : gst) : option (graph * rst) :=
  do r1 <- renumber fuel (g_blk s);
  do (g2, ch) <- prevent r1 (unreachable (g_blk s) r1) (seq 0 (g_next s)) (g_blk s) false;
  if ch : bool then do r2 <- renumber fuel g2; Some (g2, r2) else Some (g2, r1).

(** * Writing the states *)
Inductive vexp := VC (n : Z) | VQ (x : var) | VD (x : var) | VU (f : Z -> Z) (a : vexp) | VB (f : Z -> Z -> Z) (a b : vexp).

Inductive vst :=
| VSet (x : var) (e : vexp)               (* _d_x = e; *)
| VIdx (n : nat)                          (* _d_idx = n; *)
| VIf (e : vexp) (a b : list vst)
| VCase (e : vexp) (cs : list (option Z * list vst)).

(** [rewriteIdentifier] on flip-flops, src/Algorithm.cpp 1559-1675: a variable written before in the cycle is read from its _d_ register,
    others from _q_. *)
Fixpoint rewrite (deps : list var) (e : expr) : vexp :=
  match e with
  | EC n => VC n
  | EV x => if memb x deps then VD x else VQ x
  | EU f a => VU f (rewrite deps a)
  | EB f a b => VB f (rewrite deps a) (rewrite deps b)
  end.

(** [writeBlock], src/Algorithm.cpp 8471-8774: assignments and return. *)
Fixpoint write_ins (l : list instr) (deps : list var) : list vst * list var :=
  match l with
  | [] => ([], deps)
  | IAssign x e :: r => let (c, d) := write_ins r (x :: deps) in (VSet x (rewrite deps e) :: c, d)
  | IReturn :: r => let (c, d) := write_ins r deps in (VIdx 0 :: c, d)
  end.

Section Emit.
  Variable g : graph.
  Variable r : rst.
  Variable ffi : nat -> option nat.   (* fastForwardToFSMState *)

  Definition goto_state (x : nat) (deps : list var) : option (list vst * list var * list nat) :=
    do i <- ffi x; Some ([VIdx i], deps, [x]).

  (** [writeStatelessBlockGraph], src/Algorithm.cpp 8788-9199. Result: code, variables written, states pushed.
      [entry]: beginning of a call of the function, otherwise an iteration of its loop. [None]: failure or not enough fuel. *)
  Fixpoint emit (fuel : nat) (entry : bool) (stop : option nat) (b : nat) (deps : list var)
    : option (list vst * list var * list nat) :=
    match fuel with
    | O => None
    | S f =>
        if entry && (match stop with Some _ => true | None => false end) && b_state (g b) then goto_state b deps
        else
          let (c1, d1) := write_ins (b_ins (g b)) deps in
          let follow := fun x d =>
            if b_state (g x) then goto_state x d
            else if match stop with Some t => Nat.eqb x t | None => false end then Some ([], d, [])
            else emit f false stop x d in
          match b_end (g b) with
          | ENone => Some (c1 ++ [VIdx 0], d1, [])
          | ENext None => None
          | ENext (Some x) => do (c, d, q) <- follow x d1; Some (c1 ++ c, d, q)
          | EIf e ib _ it eb _ et af =>
              do (ci, di, qi) <- emit f true (Some af) ib d1;
              do (ci, di, qi) <- (if dead r et && negb (dead r it) && negb (b_state (g af))
                                  then do (c, d, q) <- emit f true stop af di; Some (ci ++ c, d, qi ++ q)
                                  else Some (ci, di, qi));
              do (ce, de, qe) <- emit f true (Some af) eb d1;
              do (ce, de, qe) <- (if dead r it && negb (dead r et) && negb (b_state (g af))
                                  then do (c, d, q) <- emit f true stop af de; Some (ce ++ c, d, qe ++ q)
                                  else Some (ce, de, qe));
              let c := c1 ++ [VIf (rewrite d1 e) ci ce] in
              let d := d1 ++ di ++ de in
              if b_state (g af) then Some (c, d, qi ++ qe)
              else if (dead r et && negb (dead r it)) || (dead r it && negb (dead r et)) then Some (c, d, qi ++ qe)
              else do (c', d', q') <- follow af d; Some (c ++ c', d', qi ++ qe ++ q')
          | ESwitch e cs af =>
              do (bs, d, q) <- (fix all (cs : list (option Z * nat)) : option (list (option Z * list vst) * list var * list nat) :=
                match cs with
                | [] => Some ([], [], [])
                | (v, cb) :: cs' =>
                    do (c, d, q) <- emit f true (Some af) cb d1;
                    do (bs, d', q') <- all cs';
                    Some ((v, c) :: bs, d ++ d', q ++ q')
                end) cs;
              let c := c1 ++ [VCase (rewrite d1 e) bs] in
              if b_state (g af) then Some (c, d1 ++ d, q)
              else do (c', d', q') <- follow af (d1 ++ d); Some (c ++ c', d', q ++ q')
          | EWhile e it af =>
              do (ci, di, qi) <- emit f true (Some af) it d1;
              do (ce, de, qe) <- (if b_state (g af) then goto_state af d1 else emit f true stop af d1);
              Some (c1 ++ [VIf (rewrite d1 e) ci ce], d1 ++ di ++ de, qi ++ qe)
          | EWait e w n =>
              do iw <- ffi w;
              do i_n <- ffi n;
              Some (c1 ++ [VIf (rewrite [] e) [VIdx i_n] [VIdx iw]], d1, [n; w])
          | ECall c sv cid go rt =>
              do i <- ffi go;
              let save := match sv with Some v => [VSet v (VQ c)] | None => [] end in
              Some (c1 ++ [VIdx i] ++ save ++ [VSet c (VC cid)], d1, [go; rt])
          | ERet c rets =>
              let restore := fun (sv : option var) => match sv with Some v => [VSet c (VQ v)] | None => [] end in
              do cs <- (fix all (rs : list (Z * nat * option var)) : option (list (option Z * list vst)) :=
                match rs with
                | [] => Some []
                | (cid, b, sv) :: rs' => do i <- ffi b; do cs <- all rs'; Some ((Some cid, VIdx i :: restore sv) :: cs)
                end) rets;
              match cs with
              | [] => Some (c1 ++ [VIdx 0], d1, [])
              | [(_, c)] => Some (c1 ++ c, d1, [])
              | _ => Some (c1 ++ [VCase (VQ c) (cs ++ [(None, [VIdx 0])])], d1, [])
              end
          end
    end.
End Emit.

(** [fastForwardToFSMState] and [toFSMState] without one-hot encoding, src/Algorithm.cpp 4479-4504. *)
Definition ff_index (fuel : nat) (g : graph) (r : rst) (last : nat) (b : nat) : option nat :=
  do x <- fast_forward fuel g b;
  if block_empty (g x) && Nat.eqb x last then Some 0
  else r_sid r x.

(** [writeCombinationalStates], src/Algorithm.cpp 8314-8415: the states of the case statement: number of the state, code. *)
Fixpoint write_states (fuel : nat) (g : graph) (r : rst) (last : nat) (deps0 : list var) (q produced : list nat)
  : option (list (nat * list vst)) :=
  match q with
  | [] => Some []
  | b :: q' =>
      match fuel with
      | O => None
      | S f =>
          match r_sid r b with
          | None => None   (* assertion *)
          | Some id =>
              if memb b produced then write_states f g r last deps0 q' produced
              else
                do (c, _, ps) <- emit g r (ff_index f g r last) f true None b deps0;
                (* pushState, 8304-8310 *)
                do ps' <- somes (map (fast_forward f g) (filter (fun x => b_state (g x)) ps));
                do arms <- write_states f g r last deps0 (q' ++ ps') (b :: produced);
                Some ((id, c) :: arms)
          end
      end
  end.

(** The whole chain. [deps0]: variables written by the always_before block. *)
Record fsm := { f_arms : list (nat * list vst); f_entry : nat; f_max : nat }.

Definition compile (fuel : nat) (unit : bool) (deps0 : list var) (p : list stmt) : option fsm :=
  do s <- gather_body fuel unit p;
  do (g, r) <- generate_states fuel s;
  do arms <- write_states fuel g r (g_last s) deps0 [0] [];
  do e <- r_sid r 0;
  Some {| f_arms := arms; f_entry := e; f_max := r_max r |}.

(** * Execution of the Verilog *)
Fixpoint veval (Q D : store) (e : vexp) : Z :=
  match e with
  | VC n => n
  | VQ x => Q x
  | VD x => D x
  | VU f a => f (veval Q D a)
  | VB f a b => f (veval Q D a) (veval Q D b)
  end.

(** Selection of a case: the first label equal to the value, otherwise the default, otherwise nothing. *)
Fixpoint pick_case {A} (v : Z) (cs : list (option Z * A)) : option A :=
  match cs with
  | [] => None
  | (Some z, a) :: r => if Z.eqb z v then Some a else pick_case v r
  | (None, _) :: r => pick_case v r
  end.
Fixpoint pick_default {A} (cs : list (option Z * A)) : option A :=
  match cs with
  | [] => None
  | (None, a) :: _ => Some a
  | _ :: r => pick_default r
  end.
Definition pick {A} (v : Z) (cs : list (option Z * A)) : option A :=
  match pick_case v cs with Some a => Some a | None => pick_default cs end.

(** Execution of blocking assignments: values of the _d_ registers and of the next state index. *)
Fixpoint vexec (Q : store) (c : vst) (s : store * nat) : store * nat :=
  let run := fix run (l : list vst) (s : store * nat) : store * nat := match l with [] => s | x :: r => run r (vexec Q x s) end in
  match c with
  | VSet x e => (upd (fst s) x (veval Q (fst s) e), snd s)
  | VIdx n => (fst s, n)
  | VIf e a b => if truth (veval Q (fst s) e) then run a s else run b s
  | VCase e cs =>
      let v := veval Q (fst s) e in
      (* [pick], inlined to follow the structure *)
      let first := (fix first (cs : list (option Z * list vst)) : option (store * nat) :=
        match cs with
        | [] => None
        | (Some z, a) :: r => if Z.eqb z v then Some (run a s) else first r
        | (None, _) :: r => first r
        end) cs in
      let dflt := (fix dflt (cs : list (option Z * list vst)) : option (store * nat) :=
        match cs with
        | [] => None
        | (None, a) :: _ => Some (run a s)
        | _ :: r => dflt r
        end) cs in
      match first with Some s' => s' | None => match dflt with Some s' => s' | None => s end end
  end.
Fixpoint vexecs (Q : store) (l : list vst) (s : store * nat) : store * nat :=
  match l with [] => s | c :: r => vexecs Q r (vexec Q c s) end.

(** One clock cycle: the _d_ registers start from the _q_ registers, then the always_before block, then the state selected by the index.
    The termination state has no code (8403-8411). An index without a state selects the default, unknown: [None]. *)
Fixpoint arm_of (k : nat) (l : list (nat * list vst)) : option (list vst) :=
  match l with [] => None | (a, c) :: r => if Nat.eqb a k then Some c else arm_of k r end.

Definition cycle (m : fsm) (Q D : store) (idx : nat) : option (store * nat) :=
  if Nat.eqb idx 0 then Some (D, 0) else do code <- arm_of idx (f_arms m); Some (vexecs Q code (D, idx)).
