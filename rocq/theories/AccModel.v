(** Which variables need a register, first pass: accesses in the blocks of the graph and classification of the variables.
    src/Algorithm.cpp 5406-5726 (determineVIOAccess), 5769-5912 and 6007-6119 (determineAccess), 6123-6229 (determineUsage). *)
From Coq Require Import List Bool Arith ZArith.
Import ListNotations.
From Verif Require Import FsmModel FsmRun.

(** The variables an instruction reads, the variables it writes. *)
Definition access := (list var * list var)%type.

(** The sets filled by the analysis: [in_vars_read] of all the blocks, and the access flags e_ReadOnly (read) and e_WriteOnly (written).
    The sets of the different blocks are merged at the end (6108-6117), they are kept together here. *)
Record acct := { a_in : list var; a_rd : list var; a_wr : list var }.
Definition acct0 : acct := {| a_in := []; a_rd := []; a_wr := [] |}.

(** [determineAccess] on an instruction, src/Algorithm.cpp 5769-5810, repeated on the instructions of a block. [aw]: _already_written. *)
Fixpoint scan (l : list access) (aw : list var) (t : acct) : list var * acct :=
  match l with
  | [] => (aw, t)
  | (rd, wr) :: l' =>
      scan l' (wr ++ aw)
        {| a_in := filter (fun x => negb (memb x aw)) rd ++ a_in t; a_rd := rd ++ a_rd t; a_wr := wr ++ a_wr t |}
  end.

Section Access.
  Variable g : graph.
  Variable acc : nat -> list access.   (* getAllBlockInstructions, 5814-5826, and determineVIOAccess on each *)

  (** Exploration from the head of a state, src/Algorithm.cpp 5885-5911: a queue of blocks, each with the variables already written.
      A block is marked visited when taken from the queue, this is only looked at when adding to the queue. *)
  Definition seen (c : option nat) (visited : list (option nat)) : bool :=
    existsb (fun v => match v, c with None, None => true | Some a, Some b => Nat.eqb a b | _, _ => false end) visited.

  Fixpoint explore (fuel : nat) (visited : list (option nat)) (q : list (option nat * list var)) (t : acct) : option acct :=
    match q with
    | [] => Some t
    | (c, aw) :: q' =>
        match fuel with
        | O => None
        | S f =>
            let visited' := c :: visited in
            match c with
            | None => explore f visited' q' t
            | Some b =>
                if b_state (g b) then explore f visited' q' t
                else
                  let (aw', t') := scan (acc b) aw t in
                  explore f visited' (q' ++ map (fun x => (x, aw')) (filter (fun x => negb (seen x visited')) (children (b_end (g b))))) t'
            end
        end
    end.

  (** [determineAccess] on a head, src/Algorithm.cpp 5863-5912. *)
  Definition access_head (fuel : nat) (h : nat) (t : acct) : option acct :=
    let (aw, t') := scan (acc h) [] t in
    explore fuel [] (map (fun x => (x, aw)) (children (b_end (g h)))) t'.

  (** [determineAccess], src/Algorithm.cpp 6007-6119: the heads are the states that can be reached, then the always blocks.
      [t]: what bindings, memories, tri-states and wires add (6022-6107). *)
  Fixpoint access_heads (fuel : nat) (hs : list nat) (t : acct) : option acct :=
    match hs with
    | [] => Some t
    | h :: hs' => do t' <- access_head fuel h t; access_heads fuel hs' t'
    end.
End Access.

(** [determineUsage], src/Algorithm.cpp 6123-6229, for variables that are neither bound nor wires. *)
Inductive usage := UConst | UTemp | UFlip | UNone.
Definition determine_usage (table : bool) (t : acct) (x : var) : usage :=
  match memb x (a_rd t), memb x (a_wr t) with
  | true, false => UConst
  | false, true => if table then UFlip else UTemp
  | true, true => if negb table && negb (memb x (a_in t)) then UTemp else UFlip
  | false, false => UNone
  end.

(** * Accesses of the instructions of FsmModel: assignments to a variable.
    src/Algorithm.cpp 5406-5440: the assigned variable is written, the identifiers of the expression are read. *)
Definition ins_access (i : instr) : access :=
  match i with IAssign x e => (evars e, [x]) | IReturn => ([], []) end.
Definition blk_access (b : blk) : list access :=
  map ins_access (b_ins b) ++
  match b_end b with
  | EIf e _ _ _ _ _ _ _ | ESwitch e _ _ | EWhile e _ _ => [(evars e, [])]
  | _ => []
  end.

(** The states of the machine: blocks with a state number, 6013-6018. Only visited blocks have a number (n_sid in FsmRenum), the list of visited
    blocks replaces the list of all the blocks; the order does not matter. *)
Definition heads (g : graph) (r : rst) : list nat :=
  filter (fun b => b_state (g b) && match r_sid r b with Some _ => true | None => false end) (r_vis r).

(** Variables made temporary by the first pass, for an algorithm with body [p]. [t0]: accesses that do not come from the states. *)
Definition body_access (fuel : nat) (unit : bool) (p : list stmt) (t0 : acct) : option acct :=
  do s <- gather_body fuel unit p;
  do (g, r) <- generate_states fuel s;
  access_heads g (fun b => blk_access (g b)) fuel (heads g r) t0.
