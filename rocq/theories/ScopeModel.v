(** Scopes of variables: which declaration each use of a name designates, and the permissions of subroutines.
    Transcribed from src/Algorithm.cpp: addBlock, insertVar, addVar, isIdentifierAvailable, translateVIOName, rewriteIdentifier, the gather
    functions (for what concerns blocks, scopes and names), and the two checkPermissions. *)
From Coq Require Import String Ascii List Bool Arith Lia.
From Verif Require Import NameModel.
Import ListNotations.
Local Open Scope string_scope.
Local Open Scope list_scope.

(** * Source. A sequence of items ends with [KEnd]. Tests of conditionals, switches and loops use one name, instructions too (several uses in
    one instruction are written as several [KUse]). [w]: the name is written. Declarations are those of variables, without expression. *)
Inductive code :=
| KEnd
| KDecl (x : string) (k : code)
| KUse (u : nat) (w : bool) (x : string) (k : code)
| KBlock (b : code) (k : code)
| KIf (u : nat) (x : string) (b : code) (k : code)
| KIfElse (u : nat) (x : string) (b1 b2 : code) (k : code)
| KSwitch (u : nat) (x : string) (cs : codes) (k : code)
| KWhile (u : nat) (x : string) (b : code) (k : code)
| KBreak (k : code)
| KStep (k : code)
| KLabel (l : string) (k : code)
| KGoto (l : string) (k : code)
| KReturn (k : code)
| KRepeat (n : nat) (b : code) (k : code)
| KSub (name : string) (reads writes : list string) (b : code) (k : code)
| KPipe (ss : codes) (k : code)
with codes := CNil | CCons (c : code) (cs : codes).

(** * State *)
(** src/Algorithm.h 543-571: block_name, context.parent_scope, context.vio_rewrites, declared_vios, context.subroutine (index in the list of
    subroutines); [b_may]: is_state may be set (set for the block after a switch or a conditional even when the code would not set it). *)
Record blk := { b_name : string; b_par : option nat; b_rew : rules; b_decl : list string; b_sub : option nat; b_may : bool }.
Definition blk0 : blk := {| b_name := ""; b_par := None; b_rew := []; b_decl := []; b_sub := None; b_may := false |}.

(** src/Algorithm.h, t_var_nfo: name and base_name. t_subroutine_nfo: allowed_reads, allowed_writes. *)
Record var := { v_name : string; v_base : string }.
Record sub := { u_reads : list string; u_writes : list string }.

(** What is remembered of instructions: a use of name [x] placed in block [b]; a warning of shadowing on the n-th variable. *)
Inductive log := LUse (u : nat) (w : bool) (x : string) (b : nat) | LShadow (n : nat).

(** [s_blk], [s_n]: m_Blocks; [s_gen]: m_NextBlockName; [s_last], [s_lbl], [s_fwd]: lastBlock, state2Block (labels only) and jumpForwardRefs
    of the current fsm; [s_vars]: m_Vars; [s_subs]: the records of subroutines; [s_known]: m_Subroutines; [s_pre]: in_algorithm_preamble;
    [s_rep]: __id is not -1. *)
Record st := { s_blk : nat -> blk; s_n : nat; s_gen : nat; s_last : nat; s_lbl : list (string * nat); s_fwd : list string;
               s_vars : list var; s_subs : list sub; s_known : list string; s_pre : bool; s_rep : bool; s_log : list log }.

Definition upd {A} (f : nat -> A) (k : nat) (v : A) : nat -> A := fun x => if Nat.eqb x k then v else f x.

Definition with_blk (s : st) (f : nat -> blk) : st :=
  {| s_blk := f; s_n := s_n s; s_gen := s_gen s; s_last := s_last s; s_lbl := s_lbl s; s_fwd := s_fwd s; s_vars := s_vars s;
     s_subs := s_subs s; s_known := s_known s; s_pre := s_pre s; s_rep := s_rep s; s_log := s_log s |}.
Definition with_pre (s : st) (v : bool) : st :=
  {| s_blk := s_blk s; s_n := s_n s; s_gen := s_gen s; s_last := s_last s; s_lbl := s_lbl s; s_fwd := s_fwd s; s_vars := s_vars s;
     s_subs := s_subs s; s_known := s_known s; s_pre := v; s_rep := s_rep s; s_log := s_log s |}.
Definition with_rep (s : st) (v : bool) : st :=
  {| s_blk := s_blk s; s_n := s_n s; s_gen := s_gen s; s_last := s_last s; s_lbl := s_lbl s; s_fwd := s_fwd s; s_vars := s_vars s;
     s_subs := s_subs s; s_known := s_known s; s_pre := s_pre s; s_rep := v; s_log := s_log s |}.
Definition with_fsm (s : st) (last : nat) (lbl : list (string * nat)) (fwd : list string) : st :=
  {| s_blk := s_blk s; s_n := s_n s; s_gen := s_gen s; s_last := last; s_lbl := lbl; s_fwd := fwd; s_vars := s_vars s;
     s_subs := s_subs s; s_known := s_known s; s_pre := s_pre s; s_rep := s_rep s; s_log := s_log s |}.
Definition with_subs (s : st) (subs : list sub) (known : list string) : st :=
  {| s_blk := s_blk s; s_n := s_n s; s_gen := s_gen s; s_last := s_last s; s_lbl := s_lbl s; s_fwd := s_fwd s; s_vars := s_vars s;
     s_subs := subs; s_known := known; s_pre := s_pre s; s_rep := s_rep s; s_log := s_log s |}.
Definition with_vars (s : st) (vs : list var) : st :=
  {| s_blk := s_blk s; s_n := s_n s; s_gen := s_gen s; s_last := s_last s; s_lbl := s_lbl s; s_fwd := s_fwd s; s_vars := vs;
     s_subs := s_subs s; s_known := s_known s; s_pre := s_pre s; s_rep := s_rep s; s_log := s_log s |}.
Definition say (s : st) (l : log) : st :=
  {| s_blk := s_blk s; s_n := s_n s; s_gen := s_gen s; s_last := s_last s; s_lbl := s_lbl s; s_fwd := s_fwd s; s_vars := s_vars s;
     s_subs := s_subs s; s_known := s_known s; s_pre := s_pre s; s_rep := s_rep s; s_log := s_log s ++ [l] |}.
Definition set_may (s : st) (b : nat) : st :=
  let k := s_blk s b in
  with_blk s (upd (s_blk s) b {| b_name := b_name k; b_par := b_par k; b_rew := b_rew k; b_decl := b_decl k; b_sub := b_sub k; b_may := true |}).

(** [addBlock], src/Algorithm.cpp 375-415: scope, rules and subroutine of the new block. [ctx]: block giving parent_scope and vio_rewrites. The
    test on state names only matters for labels, see [gather]. *)
Definition add_ctx (s : st) (name : string) (ctx : nat) (sub : option nat) : nat * st :=
  (s_n s,
   {| s_blk := upd (s_blk s) (s_n s) {| b_name := name; b_par := Some ctx; b_rew := b_rew (s_blk s ctx); b_decl := []; b_sub := sub; b_may := false |};
      s_n := S (s_n s); s_gen := s_gen s; s_last := s_n s; s_lbl := s_lbl s; s_fwd := s_fwd s; s_vars := s_vars s;
      s_subs := s_subs s; s_known := s_known s; s_pre := s_pre s; s_rep := s_rep s; s_log := s_log s |}).
Definition add (s : st) (name : string) (parent : nat) : nat * st := add_ctx s name parent (b_sub (s_blk s parent)).

(** [generateBlockName], src/Algorithm.cpp 1927-1930. *)
Definition block_name (s : st) : string := ("__block_" ++ to_string (s_gen s))%string.
Definition next_gen (s : st) : st :=
  {| s_blk := s_blk s; s_n := s_n s; s_gen := S (s_gen s); s_last := s_last s; s_lbl := s_lbl s; s_fwd := s_fwd s; s_vars := s_vars s;
     s_subs := s_subs s; s_known := s_known s; s_pre := s_pre s; s_rep := s_rep s; s_log := s_log s |}.
Definition new (s : st) (before after : string) (parent : nat) : nat * st :=
  add (next_gen s) (before ++ block_name s ++ after)%string parent.

(** The walk over context.parent_scope, src/Algorithm.cpp 2252-2262 and 3324-3331. A parent is created before its children. *)
Fixpoint chain (f : nat) (s : st) (b : nat) : list nat :=
  match f with
  | O => []
  | S f' => b :: match b_par (s_blk s b) with None => [] | Some p => chain f' s p end
  end.
Definition scopes (s : st) (b : nat) : list nat := chain (S b) s b.

Definition var_names (s : st) : list string := map v_name (s_vars s).
(** m_Vars.at(m_VarNames.at(decl)).base_name *)
Fixpoint base_of (vs : list var) (v : string) : option string :=
  match vs with [] => None | a :: r => if String.eqb v (v_name a) then Some (v_base a) else base_of r v end.
Definition is_base (s : st) (x v : string) : bool := match base_of (s_vars s) v with Some y => String.eqb y x | None => false end.

(** [blockVIOName], src/Algorithm.cpp 2436-2443: [NameModel.blockVIOName].
    [isIdentifierAvailable], src/Algorithm.cpp 2213-2266, without inputs and outputs of subroutines, instances and memories. *)
Definition available (ports : list string) (s : st) (cur : nat) (base name : string) : availability :=
  if mem base (s_known s) then Collision
  else if mem base ports then Collision
  else if mem name (var_names s) then Collision
  else if existsb (fun a => existsb (is_base s base) (b_decl (s_blk s a))) (scopes s cur) then Shadowing
  else Available.

Definition upd_sub (l : list sub) (i : nat) (f : sub -> sub) : list sub :=
  (fix go (l : list sub) (i : nat) : list sub :=
     match l, i with
     | [], _ => []
     | a :: r, O => f a :: r
     | a :: r, S j => a :: go r j
     end) l i.
Definition allow (v : string) (a : sub) : sub := {| u_reads := v :: u_reads a; u_writes := v :: u_writes a |}.

(** [addVar] and [insertVar], src/Algorithm.cpp 523-583. *)
Definition add_var (ports : list string) (s : st) (cur : nat) (x : string) : option st :=
  let k := s_blk s cur in
  let v := blockVIOName (b_name k) x in
  let s1 := match b_sub k with
            | None => s
            | Some i => with_subs s (upd_sub (s_subs s) i (allow v)) (s_known s)
            end in
  let ins (s : st) : st :=
    with_vars
      (with_blk s (upd (s_blk s) cur {| b_name := b_name k; b_par := b_par k; b_rew := (x, v) :: b_rew k;
                                        b_decl := v :: b_decl k; b_sub := b_sub k; b_may := b_may k |}))
      (s_vars s ++ [{| v_name := v; v_base := x |}]) in
  match available ports s1 cur x v with
  | Collision => None
  | Shadowing => Some (ins (say s1 (LShadow (length (s_vars s1)))))
  | Available => Some (ins s1)
  end.

(** [translateVIOName], src/Algorithm.cpp 1394-1426: the block rules. The inputs and outputs of subroutines and the registers of pipelines
    are not modelled here. *)
Definition translate (s : st) (b : nat) (x : string) : string := rewrite1 (b_rew (s_blk s b)) x.

Definition obind {A B} (o : option A) (f : A -> option B) : option B := match o with Some a => f a | None => None end.
Notation "'do' x <- o ; r" := (obind o (fun x => r)) (at level 200, x pattern, right associativity).

Fixpoint sassoc (k : string) (l : list (string * nat)) : option nat :=
  match l with [] => None | (a, b) :: r => if String.eqb k a then Some b else sassoc k r end.

(** [resolveForwardJumpRefs], src/Algorithm.cpp 4138-4168, for the current fsm. *)
Fixpoint forward (fwd : list string) (lbl : list (string * nat)) (s : st) : option st :=
  match fwd with
  | [] => Some s
  | l :: r => match sassoc l lbl with None => None | Some b => forward r lbl (set_may s b) end
  end.

Section Gather.
  Variable ports : list string.    (* names of inputs, outputs and inouts *)

  (** [gather], src/Algorithm.cpp 3875-4135, with the functions it calls. [None]: an error is reported. [brk]: break_to. *)
  Fixpoint gather (c : code) (brk : option nat) (cur : nat) (s : st) {struct c} : option (nat * st) :=
    (* gatherBlock, 1934-1948; the blocks of conditionals, switches and loops go through it as well *)
    let gblock (b : code) (brk : option nat) (cur : nat) (s : st) : option (nat * st) :=
      let (nb, s1) := new s "" "" cur in
      do (_, s2) <- gather b brk nb s1;
      Some (new s2 "" "" cur) in
    match c with
    | KEnd => Some (cur, s)
    | KDecl x k => do s1 <- add_var ports s cur x; gather k brk cur s1
    | KUse u w x k => gather k brk cur (with_pre (say s (LUse u w x cur)) false)
    | KBlock b k => do (a, s1) <- gblock b brk cur (with_pre s false); gather k brk a s1
    | KIf u x b k =>                                                         (* gatherIfThen, 3130-3153 *)
        let s0 := say (with_pre s false) (LUse u false x cur) in
        let (ib, s1) := new s0 "" "" cur in
        let (eb, s2) := new s1 "" "" cur in
        do (_, s3) <- gblock b brk ib s2;
        let (af, s4) := new s3 "" "" cur in
        gather k brk af (set_may s4 af)
    | KIfElse u x b1 b2 k =>                                                 (* gatherIfElse, 3097-3126 *)
        let s0 := say (with_pre s false) (LUse u false x cur) in
        let (ib, s1) := new s0 "" "" cur in
        let (eb, s2) := new s1 "" "" cur in
        do (_, s3) <- gblock b1 brk ib s2;
        do (_, s4) <- gblock b2 brk eb s3;
        let (af, s5) := new s4 "" "" cur in
        gather k brk af (set_may s5 af)
    | KSwitch u x cs k =>                                                    (* gatherSwitchCase, 3157-3191 *)
        let s0 := say (with_pre s false) (LUse u false x cur) in
        let (af, s1) := new s0 "" "" cur in
        do s2 <- gcases cs brk cur s1;
        gather k brk af (set_may s2 af)
    | KWhile u x b k =>                                                      (* gatherWhile, 2031-2064 *)
        let (h, s1) := new (with_pre s false) "__while" "" cur in
        let s2 := say (set_may s1 h) (LUse u false x h) in
        let (it, s3) := new s2 "" "" cur in
        let (af, s4) := new s3 "" "" cur in
        do (_, s5) <- gblock b (Some af) it s4;
        gather k brk af (with_fsm s5 af (s_lbl s5) (s_fwd s5))
    | KBreak k =>                                                            (* gatherBreakLoop, 2004-2027 *)
        match brk with
        | None => None
        | Some t => let (nb, s1) := new (set_may (with_pre s false) t) "" "" cur in gather k brk nb s1
        end
    | KStep k =>                                                             (* splitOrContinueBlock, 1952-1981 *)
        let (nb, s1) := new (with_pre s false) "" "" cur in gather k brk nb (set_may s1 nb)
    | KLabel l k =>
        match sassoc l (s_lbl s) with
        | Some _ => None
        | None =>
            let (nb, s1) := add (with_pre s false) l cur in
            gather k brk nb (with_fsm s1 (s_last s1) ((l, nb) :: s_lbl s1) (s_fwd s1))
        end
    | KGoto l k =>                                                           (* gatherJump, 2744-2763 *)
        let s0 := with_pre s false in
        let s1 := match sassoc l (s_lbl s0) with
                  | Some b => set_may s0 b
                  | None => with_fsm s0 (s_last s0) (s_lbl s0) (l :: s_fwd s0)
                  end in
        let (nb, s2) := new s1 "" "" cur in gather k brk nb s2
    | KReturn k =>                                                           (* gatherReturnFrom, 2767-2783 *)
        let s0 := with_pre s false in
        match b_sub (s_blk s0 cur) with
        | None => gather k brk cur s0
        | Some _ => let (nb, s1) := new s0 "" "" cur in gather k brk nb (set_may s1 cur)
        end
    | KRepeat n b k =>                                                       (* gatherRepeatBlock, 3195-3213 *)
        let s0 := with_pre s false in
        if s_rep s0 then None
        else if Nat.eqb n 0 then None
        else
          do (a, s1) <- (fix rep (n : nat) (cur : nat) (s : st) : option (nat * st) :=
                           match n with
                           | O => Some (cur, s)
                           | S m => do (c, s') <- gather b brk cur s; rep m c s'
                           end) n cur (with_rep s0 true);
          gather k brk a (with_rep s1 false)
    | KSub name reads writes b k =>                                          (* gatherDeclaration 2107-2136, gatherSubroutine 2270-2433 *)
        if negb (s_pre s) then None
        else match b_sub (s_blk s cur) with
        | Some _ => None
        | None =>
            match available ports s cur name name with
            | Available =>
                let i := length (s_subs s) in
                let (sb, s1) := add_ctx s ("__sub_" ++ name)%string cur (Some i) in
                let s2 := with_subs (set_may s1 sb)
                            (s_subs s1 ++ [{| u_reads := map (translate s cur) reads; u_writes := map (translate s cur) writes |}]) (s_known s1) in
                do (_, s3) <- gather b brk sb s2;
                gather k brk cur (with_pre (with_subs s3 (s_subs s3) (name :: s_known s3)) true)
            | _ => None
            end
        end
    | KPipe ss k =>                                                          (* gatherPipeline, 2569-2733 *)
        match ss with
        | CNil | CCons _ CNil => None    (* assertion, 2571 *)
        | _ =>
            let s0 := with_pre s false in
            do s1 <- gstages ss cur cur s0;
            let (af, s2) := new (with_fsm s1 (s_last s0) (s_lbl s0) (s_fwd s0)) "" "" cur in
            gather k brk af s2
        end
    end
  with gcases (cs : codes) (brk : option nat) (cur : nat) (s : st) {struct cs} : option st :=
    match cs with
    | CNil => Some s
    | CCons c r =>
        let (cb, s1) := new s "" "_case" cur in
        let (nb, s2) := new s1 "" "" cb in
        do (_, s3) <- gather c brk nb s2;
        gcases r brk cur (snd (new s3 "" "" cb))
    end
  (** [concatenatePipeline], 2476-2541: a new fsm for each stage; the scope of a stage is the last block of the fsm of the previous one. *)
  with gstages (ss : codes) (cur from : nat) (s : st) {struct ss} : option st :=
    match ss with
    | CNil => Some s
    | CCons c r =>
        let (fb, s1) := add_ctx (next_gen s) ("__stage_" ++ block_name s)%string from (b_sub (s_blk s cur)) in
        do (_, s2) <- gather c None fb (with_fsm s1 fb [] []);
        do s3 <- forward (s_fwd s2) (s_lbl s2) s2;
        gstages r cur (s_last s3) s3
    end.

  Definition rep_gather (b : code) (brk : option nat) : nat -> nat -> st -> option (nat * st) :=
    fix rep (n : nat) (cur : nat) (s : st) : option (nat * st) :=
      match n with
      | O => Some (cur, s)
      | S m => do (c, s') <- gather b brk cur s; rep m c s'
      end.
  Definition gblock (b : code) (brk : option nat) (cur : nat) (s : st) : option (nat * st) :=
    let (nb, s1) := new s "" "" cur in
    do (_, s2) <- gather b brk nb s1;
    Some (new s2 "" "" cur).

  (** [gatherBody], src/Algorithm.cpp 6474-6498. *)
  Definition st0 : st :=
    {| s_blk := upd (fun _ => blk0) 0 {| b_name := "_top"; b_par := None; b_rew := []; b_decl := []; b_sub := None; b_may := true |};
       s_n := 1; s_gen := 1; s_last := 0; s_lbl := []; s_fwd := []; s_vars := []; s_subs := []; s_known := []; s_pre := true; s_rep := false;
       s_log := [] |}.

  Fixpoint add_vars (xs : list string) (cur : nat) (s : st) : option st :=
    match xs with [] => Some s | x :: r => do s1 <- add_var ports s cur x; add_vars r cur s1 end.

  (** The body of a unit, src/Algorithm.cpp 3959-4005, 4010-4046: declarations [xs] of the unit, then the algorithm block in a block of its own. *)
  Definition gather_unit (xs : list string) (p : code) : option st :=
    do s <- add_vars xs 0 st0;
    let (nb, s1) := new s "" "" 0 in
    do (_, s2) <- gather p None nb s1;
    let (_, s3) := new s2 "" "" 0 in
    forward (s_fwd s3) (s_lbl s3) s3.
  (** The body of an algorithm, src/Algorithm.cpp 3939-3957. *)
  Definition gather_algorithm (p : code) : option st :=
    do (_, s) <- gather p None 0 st0;
    forward (s_fwd s) (s_lbl s) s.

  (** * Meaning of the uses *)
  Inductive target := TPort (x : string) | TVar (n : nat).

  (** m_VarNames: index of a variable in m_Vars *)
  Fixpoint index_of (vs : list var) (v : string) : option nat :=
    match vs with
    | [] => None
    | a :: r => if String.eqb v (v_name a) then Some 0 else option_map S (index_of r v)
    end.

  (** [rewriteIdentifier], src/Algorithm.cpp 1584-1623: ports first, then variables; [None]: never declared. *)
  Definition designates (s : st) (v : string) : option target :=
    if mem v ports then Some (TPort v) else option_map TVar (index_of (s_vars s) v).
  Definition resolve (s : st) (b : nat) (x : string) : option target := designates s (translate s b x).

  (** [checkPermissions] of a node, src/Algorithm.cpp 3284-3336: permissions of subroutines ([determineVIOAccess] gives the translated names of
      known variables, inputs and outputs), then scope. *)
  Definition denied (s : st) (b : nat) (w : bool) (x : string) : bool :=
    match b_sub (s_blk s b) with
    | None => false
    | Some i =>
        let v := translate s b x in
        match designates s v with
        | None => false
        | Some _ =>
            match nth_error (s_subs s) i with
            | None => false
            | Some a => negb (mem (translate s b v) (if w then u_writes a else u_reads a))
            end
        end
    end.
  Definition in_scope (s : st) (b : nat) (x : string) : bool :=
    let v := translate s b x in
    match designates s v with
    | Some (TVar _) => existsb (fun a => mem v (b_decl (s_blk s a))) (scopes s b)
    | _ => true
    end.

  (** [checkPermissions], src/Algorithm.cpp 6591-6613: only the blocks with a number of state are looked at. [numbered]: state_id is not -1. *)
  Definition warnings (s : st) (numbered : nat -> bool) : list nat :=
    flat_map (fun l => match l with
                       | LUse u w x b => if numbered b && denied s b w x then [u] else []
                       | _ => []
                       end) (s_log s).
  (** Errors: a use out of scope in a numbered block, an unknown name in a block that is written. *)
  Definition accepted (s : st) (numbered written : nat -> bool) : bool :=
    forallb (fun l => match l with
                      | LUse u w x b => (negb (numbered b) || in_scope s b x)
                                        && (negb (written b) || match resolve s b x with Some _ => true | None => false end)
                      | _ => true
                      end) (s_log s).
End Gather.

(** * Lexical scope, from the source alone. Variables are numbered in the order of declaration. *)
Definition env := list (string * (nat * bool)).    (* innermost first; true: declared in the subroutine we are in *)
Fixpoint elook (x : string) (e : env) : option (nat * bool) :=
  match e with [] => None | (y, r) :: t => if String.eqb x y then Some r else elook x t end.

Inductive event := EUse (u : nat) (t : option target) (denied : bool) | EShadow (n : nat).

Definition teq (a b : target) : bool :=
  match a, b with TPort x, TPort y => String.eqb x y | TVar n, TVar m => Nat.eqb n m | _, _ => false end.
Definition tmem (t : target) (l : list target) : bool := existsb (teq t) l.
Definition perms := option (list target * list target).

Section Lexical.
  Variable ports : list string.

  Definition means (e : env) (x : string) : option target :=
    match elook x e with
    | Some (n, _) => Some (TVar n)
    | None => if mem x ports then Some (TPort x) else None
    end.
  (** In a subroutine, a name is free to use when it is declared there, or when permission was given. *)
  Definition refused (p : perms) (e : env) (w : bool) (x : string) : bool :=
    match p with
    | None => false
    | Some (r, wr) =>
        match elook x e with
        | Some (n, own) => negb (own || tmem (TVar n) (if w then wr else r))
        | None => if mem x ports then negb (tmem (TPort x) (if w then wr else r)) else false
        end
    end.
  Definition use (p : perms) (e : env) (u : nat) (w : bool) (x : string) : event := EUse u (means e x) (refused p e w x).
  Definition outer (e : env) : env := map (fun a => (fst a, (fst (snd a), false))) e.
  Fixpoint targets (e : env) (l : list string) : list target :=
    match l with [] => [] | x :: r => match means e x with Some t => t :: targets e r | None => targets e r end end.

  (** Result: number of variables so far, names visible after the sequence, events in the order of the source. *)
  Fixpoint lex (c : code) (p : perms) (n : nat) (e : env) {struct c} : nat * env * list event :=
    match c with
    | KEnd => (n, e, [])
    | KDecl x k =>
        let '(n', e', l) := lex k p (S n) ((x, (n, true)) :: e) in
        (n', e', match elook x e with Some _ => EShadow n :: l | None => l end)
    | KUse u w x k => let '(n', e', l) := lex k p n e in (n', e', use p e u w x :: l)
    | KBlock b k =>
        let '(n1, _, l1) := lex b p n e in
        let '(n2, e2, l2) := lex k p n1 e in (n2, e2, l1 ++ l2)
    | KIf u x b k | KWhile u x b k =>
        let '(n1, _, l1) := lex b p n e in
        let '(n2, e2, l2) := lex k p n1 e in (n2, e2, use p e u false x :: l1 ++ l2)
    | KIfElse u x b1 b2 k =>
        let '(n1, _, l1) := lex b1 p n e in
        let '(n2, _, l2) := lex b2 p n1 e in
        let '(n3, e3, l3) := lex k p n2 e in (n3, e3, use p e u false x :: l1 ++ l2 ++ l3)
    | KSwitch u x cs k =>
        let '(n1, l1) := lex_cases cs p n e in
        let '(n2, e2, l2) := lex k p n1 e in (n2, e2, use p e u false x :: l1 ++ l2)
    | KBreak k | KStep k | KLabel _ k | KGoto _ k | KReturn k => lex k p n e
    | KRepeat m b k =>
        let '(n1, e1, l1) :=
          (fix rep (m : nat) (n : nat) (e : env) : nat * env * list event :=
             match m with
             | O => (n, e, [])
             | S m' => let '(n1, e1, l1) := lex b p n e in let '(n2, e2, l2) := rep m' n1 e1 in (n2, e2, l1 ++ l2)
             end) m n e in
        let '(n2, e2, l2) := lex k p n1 e1 in (n2, e2, l1 ++ l2)
    | KSub _ reads writes b k =>
        let '(n1, _, l1) := lex b (Some (targets e reads, targets e writes)) n (outer e) in
        let '(n2, e2, l2) := lex k p n1 e in (n2, e2, l1 ++ l2)
    | KPipe ss k =>
        let '(n1, l1) := lex_stages ss p n e in
        let '(n2, e2, l2) := lex k p n1 e in (n2, e2, l1 ++ l2)
    end
  with lex_cases (cs : codes) (p : perms) (n : nat) (e : env) {struct cs} : nat * list event :=
    match cs with
    | CNil => (n, [])
    | CCons c r => let '(n1, _, l1) := lex c p n e in let '(n2, l2) := lex_cases r p n1 e in (n2, l1 ++ l2)
    end
  (** What a stage declares is visible in the stages that follow. *)
  with lex_stages (ss : codes) (p : perms) (n : nat) (e : env) {struct ss} : nat * list event :=
    match ss with
    | CNil => (n, [])
    | CCons c r => let '(n1, e1, l1) := lex c p n e in let '(n2, l2) := lex_stages r p n1 e1 in (n2, l1 ++ l2)
    end.

  Definition rep_lex (b : code) (p : perms) : nat -> nat -> env -> nat * env * list event :=
    fix rep (m : nat) (n : nat) (e : env) : nat * env * list event :=
      match m with
      | O => (n, e, [])
      | S m' => let '(n1, e1, l1) := lex b p n e in let '(n2, e2, l2) := rep m' n1 e1 in (n2, e2, l1 ++ l2)
      end.

  Fixpoint decls (xs : list string) (k : code) : code := match xs with [] => k | x :: r => KDecl x (decls r k) end.
  Definition lexical_unit (xs : list string) (p : code) : list event := snd (lex (decls xs (KBlock p KEnd)) None 0 []).
  Definition lexical_algorithm (p : code) : list event := snd (lex p None 0 []).
End Lexical.

(** * Programs where no name is used before its declaration in the same run of instructions. *)
Fixpoint names_of (c : code) : list string :=
  match c with
  | KEnd => []
  | KDecl x k => names_of k
  | KUse _ _ x k => x :: names_of k
  | KBlock b k => names_of b ++ names_of k
  | KIf _ x b k | KWhile _ x b k => x :: names_of b ++ names_of k
  | KIfElse _ x b1 b2 k => x :: names_of b1 ++ names_of b2 ++ names_of k
  | KSwitch _ x cs k => x :: names_ofs cs ++ names_of k
  | KBreak k | KStep k | KLabel _ k | KGoto _ k | KReturn k => names_of k
  | KRepeat _ b k => names_of b ++ names_of k
  | KSub _ r w b k => r ++ w ++ names_of b ++ names_of k
  | KPipe ss k => names_ofs ss ++ names_of k
  end
with names_ofs (cs : codes) : list string :=
  match cs with CNil => [] | CCons c r => names_of c ++ names_ofs r end.

Fixpoint decls_of (c : code) : list string :=
  match c with
  | KEnd => []
  | KDecl x k => x :: decls_of k
  | KUse _ _ _ k => decls_of k
  | KBlock b k | KIf _ _ b k | KWhile _ _ b k | KRepeat _ b k | KSub _ _ _ b k => decls_of b ++ decls_of k
  | KIfElse _ _ b1 b2 k => decls_of b1 ++ decls_of b2 ++ decls_of k
  | KSwitch _ _ cs k | KPipe cs k => decls_ofs cs ++ decls_of k
  | KBreak k | KStep k | KLabel _ k | KGoto _ k | KReturn k => decls_of k
  end
with decls_ofs (cs : codes) : list string :=
  match cs with CNil => [] | CCons c r => decls_of c ++ decls_ofs r end.

Fixpoint labels_of (c : code) : list string :=
  match c with
  | KEnd => []
  | KDecl _ k | KUse _ _ _ k => labels_of k
  | KBlock b k | KIf _ _ b k | KWhile _ _ b k | KRepeat _ b k | KSub _ _ _ b k => labels_of b ++ labels_of k
  | KIfElse _ _ b1 b2 k => labels_of b1 ++ labels_of b2 ++ labels_of k
  | KSwitch _ _ cs k | KPipe cs k => labels_ofs cs ++ labels_of k
  | KLabel l k => l :: labels_of k
  | KBreak k | KStep k | KGoto _ k | KReturn k => labels_of k
  end
with labels_ofs (cs : codes) : list string :=
  match cs with CNil => [] | CCons c r => labels_of c ++ labels_ofs r end.

(** [o_pend]: names used since the beginning of the run; [o_sw]: the run follows a switch (or a subroutine); [o_late]: with a declaration
    since then. *)
Record ord_st := { o_pend : list string; o_sw : bool; o_late : bool }.
Definition fresh : ord_st := {| o_pend := []; o_sw := false; o_late := false |}.
Definition no_case (cs : codes) : bool := match cs with CNil => true | _ => false end.

Fixpoint ord (c : code) (o : ord_st) {struct c} : option ord_st :=
  match c with
  | KEnd => Some o
  | KDecl x k => if mem x (o_pend o) then None else ord k {| o_pend := o_pend o; o_sw := o_sw o; o_late := o_late o || o_sw o |}
  | KUse _ _ x k => ord k {| o_pend := x :: o_pend o; o_sw := o_sw o; o_late := o_late o |}
  | KBlock b k | KIf _ _ b k | KWhile _ _ b k => do _ <- ord b fresh; ord k fresh
  | KIfElse _ _ b1 b2 k => do _ <- ord b1 fresh; do _ <- ord b2 fresh; ord k fresh
  | KSwitch _ _ cs k => if ord_cases cs then ord k {| o_pend := []; o_sw := negb (no_case cs); o_late := false |} else None
  | KBreak k | KStep k | KLabel _ k | KGoto _ k => ord k fresh
  | KReturn k => ord k {| o_pend := o_pend o; o_sw := true; o_late := o_late o |}
  | KRepeat n b k =>
      do o1 <- (fix rep (n : nat) (o : ord_st) : option ord_st :=
                  match n with O => Some o | S m => do o1 <- ord b o; rep m o1 end) n o;
      ord k o1
  | KSub _ r w b k =>
      do _ <- ord b fresh;
      ord k {| o_pend := r ++ w ++ names_of b ++ o_pend o; o_sw := true; o_late := true |}
  | KPipe ss k => if ord_stages ss then ord k fresh else None
  end
with ord_cases (cs : codes) : bool :=
  match cs with CNil => true | CCons c r => match ord c fresh with Some _ => ord_cases r | None => false end end
with ord_stages (ss : codes) : bool :=
  match ss with
  | CNil => true
  | CCons c r => match ord c fresh with
                 | Some o => (no_case r || negb (o_late o)) && ord_stages r
                 | None => false
                 end
  end.
Definition rep_ord (b : code) : nat -> ord_st -> option ord_st :=
  fix rep (n : nat) (o : ord_st) : option ord_st := match n with O => Some o | S m => do o1 <- ord b o; rep m o1 end.

(** The name of a variable in the module: of a generated block, or of a block with a label. *)
Definition generated (ls ds : list string) (v : string) : Prop :=
  (exists r, v = String "_" r) \/ exists l x, In l ls /\ In x ds /\ v = (l ++ "_" ++ x)%string.
