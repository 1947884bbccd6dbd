(** Declarations of variables inside the body of an algorithm: where their initial values are written, which blocks the numbering of states may skip. *)
From Coq Require Import List Bool Arith ZArith.
Import ListNotations.
From Verif Require Import FsmModel FsmLayout.

(** * Kinds of instructions
    A declaration is represented in a program by the assignment of its initial value.
    [KPlain]: an instruction. [KInit]: declaration [type x = value], gatherVarNfo src/Algorithm.cpp 629-640 and insertVar 539-544: no instruction is added,
    the variable is added to initialized_vars of the block and the block is marked no_skip. [KExpr]: declaration [type x = expression], gatherVarNfo 652-654
    and gatherDeclarationVar 707-717: an expression catcher, held by the block among its instructions. Declarations with a value between parentheses and
    [uninitialized] ones do not add anything to a block (539) and are not represented. *)
Inductive ikind := KPlain | KInit | KExpr.

Section Init.
  Variable kind : instr -> ikind.
  Definition is_init (i : instr) : bool := match kind i with KInit => true | _ => false end.
  Definition is_expr (i : instr) : bool := match kind i with KExpr => true | _ => false end.

  (** initialized_vars, in the order of the declarations (writeVarInits, src/Algorithm.cpp 9399-9404), and the instructions. *)
  Definition inits (l : list instr) : list instr := filter is_init l.
  Definition others (l : list instr) : list instr := filter (fun i => negb (is_init i)) l.

  (** [blockIsEmpty], src/Algorithm.cpp 4529-4568: initialized variables make a block non empty, expression catchers do not. *)
  Definition is_empty (b : blk) : bool := negb (existsb is_init (b_ins b)) && forallb is_expr (b_ins b).

  (** What fastForward (4572-4608), renumberStates (4284-4340) and preventIfElseCodeDup (4182-4222) see of a block: whether it is empty, its end, whether it is
      a state, no_skip (set by insertVar, 543). *)
  Definition view (b : blk) : blk :=
    {| b_ins := if is_empty b then [] else [IReturn]; b_end := b_end b; b_state := b_state b; b_noskip := b_noskip b || existsb is_init (b_ins b) |}.
  Definition viewg (g : graph) : graph := fun x => view (g x).

  (** [writeBlock], src/Algorithm.cpp 8482-8488: the initial values are written before the instructions, but in the block _top (number 0), where they are not
      written. writeVarInits, 9397-9425, adds the variables to those written (9423). *)
  Definition layout (b : nat) (l : list instr) : list instr := if Nat.eqb b 0 then others l else inits l ++ others l.
  Definition laid (g v : graph) : graph := fun x =>
    {| b_ins := layout x (b_ins (g x)); b_end := b_end (v x); b_state := b_state (v x); b_noskip := b_noskip (v x) |}.

  (** [writeCombinationalStates], src/Algorithm.cpp 8314-8415, as [write_states] of FsmModel; [h]: what is written for a block, [v]: what is seen of it. *)
  Fixpoint write_states_init (fuel : nat) (v h : graph) (r : rst) (last : nat) (deps0 : list var) (q produced : list nat)
    : option (list (nat * list vst)) :=
    match q with
    | [] => Some []
    | b :: q' =>
        match fuel with
        | O => None
        | S f =>
            match r_sid r b with
            | None => None
            | Some id =>
                if memb b produced then write_states_init f v h r last deps0 q' produced
                else
                  do (c, _, ps) <- emit h r (ff_index f v r last) f true None b deps0;
                  do ps' <- somes (map (fast_forward f v) (filter (fun x => b_state (v x)) ps));
                  do arms <- write_states_init f v h r last deps0 (q' ++ ps') (b :: produced);
                  Some ((id, c) :: arms)
            end
        end
    end.

  (** The whole chain, with declarations. *)
  Definition compile_init (fuel : nat) (unit : bool) (deps0 : list var) (p : list stmt) : option fsm :=
    do s <- gather_body fuel unit p;
    do (v, r) <- generate_states fuel (upd_blk s (viewg (g_blk s)));
    do arms <- write_states_init fuel v (laid (g_blk s) v) r (g_last s) deps0 [0] [];
    do e <- r_sid r 0;
    Some {| f_arms := arms; f_entry := e; f_max := r_max r |}.
End Init.

(** * The runs of a program: the instructions between two places where a block ends, with what the run starts with.
    [STop]: beginning of the program. [SSoft]: beginning of a block, of a branch, of an iteration, what follows a block, a break, a goto, a conditional without
    cycle boundary, a loop without break. [SHard]: what follows [++:]. [SOther]: anything else. *)
Inductive start := STop | SSoft | SHard | SOther.
Definition run_of := (start * list instr)%type.

Definition soft_if (b : bool) : start := if b then SSoft else SOther.
(** Does the instruction end the run, and how does the next run start. *)
Definition opens (st : stmt) : option run_of :=
  match st with
  | SAssign _ _ | SReturn => None
  | SBlock _ | SBreak | SGoto _ => Some (SSoft, [])
  | SIf _ _ | SIfElse _ _ _ | SSwitch _ _ => Some (soft_if (timeless st), [])
  | SWhile _ l => Some (soft_if (negb (hasbrks l)), [])
  | SStep => Some (SHard, [])
  | SLabel _ => Some (SOther, [])
  | SJoin _ rb => Some (SOther, map (fun r => IAssign (fst r) (snd r)) rb)
  end.
Definition adds (st : stmt) : list instr :=
  match st with SAssign x e => [IAssign x e] | SReturn => [IReturn] | _ => [] end.

(** The runs inside an instruction. *)
Fixpoint inner (st : stmt) : list run_of :=
  let seg := (fix seg (c : run_of) (l : list stmt) : list run_of :=
    match l with
    | [] => [c]
    | x :: r => match opens x with
                | None => seg (fst c, snd c ++ adds x) r
                | Some c' => c :: inner x ++ seg c' r
                end
    end) in
  match st with
  | SBlock l | SIf _ l | SWhile _ l => seg (SSoft, []) l
  | SIfElse _ l1 l2 => seg (SSoft, []) l1 ++ seg (SSoft, []) l2
  | SSwitch _ cs => flat_map (fun c => seg (SSoft, []) (snd c)) cs
  | _ => []
  end.
(** The runs of a list starting with the run [c]: those that are ended, the last one. *)
Fixpoint ended (c : run_of) (l : list stmt) : list run_of :=
  match l with
  | [] => []
  | x :: r => match opens x with
              | None => ended (fst c, snd c ++ adds x) r
              | Some c' => c :: inner x ++ ended c' r
              end
  end.
Fixpoint lastrun (c : run_of) (l : list stmt) : run_of :=
  match l with
  | [] => c
  | x :: r => match opens x with
              | None => lastrun (fst c, snd c ++ adds x) r
              | Some c' => lastrun c' r
              end
  end.
