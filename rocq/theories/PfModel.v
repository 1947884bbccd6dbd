(** Pipelines in algorithms: each stage is a state machine; stages wait for each other, and may stall. *)
From Coq Require Import List Bool Arith.
Import ListNotations.

(** * A pipeline: number of stages; for each stage the index of its first state (entryState, src/Algorithm.cpp 4456-4462) and of its last one
    (lastPipelineStageState, 4475-4479). Index 0 is the termination state. In an algorithm, each stage has at least one state (concatenatePipeline, 2519-2525). *)
Record pipeline := { p_num : nat; p_entry : nat -> nat; p_last : nat -> nat }.

(** Registers of the stages: index, full (7896-7910), and the register of a trickling variable. [A]: its values. *)
Record pst {A : Type} := { r_idx : nat -> nat; r_full : nat -> bool; r_t : nat -> A }.
Arguments pst : clear implicits.

(** What the stages do: any behaviour, cycle by cycle. [o_next s n j]: the state stage [s] selects in state [j] in cycle [n]; [o_stall s n]: whether it executes stall, which is
    only accepted in the last state (8689-8696); [o_proc s n j]: effect of the code on the trickling variable; [o_src n]: value of the variable at the end of cycle [n], in the stage
    where it starts trickling; [o_go n]: condition on the parent (10567-10574); [o_dis n]: the first stage is disabled (8775-8784: the parent takes another branch). *)
Record beh {A : Type} := {
  o_next : nat -> nat -> nat -> nat; o_stall : nat -> nat -> bool; o_proc : nat -> nat -> nat -> A -> A; o_src : nat -> A; o_go : nat -> bool; o_dis : nat -> bool }.
Arguments beh : clear implicits.

Section Pipeline.
  Context {A : Type}.
  Variables (P : pipeline) (fw : nat) (B : beh A).   (* [fw]: first stage writing the variable *)

  Section Cycle.
    Variables (n : nat) (q : pst A).
    (** All the states of the first stage are disabled, not only its first one: 8808-8820. *)
    Definition disabled (s : nat) : bool := Nat.eqb s 0 && o_dis B n.
    Definition in_last (s : nat) : bool := Nat.eqb (r_idx q s) (p_last P s).
    (** Reset to 0 at the beginning of the cycle (8220), set by stall. *)
    Definition stall (s : nat) : bool := in_last s && negb (disabled s) && o_stall B s n.
    (** After the code of the stages. Index: D = Q (8218); termination has no code; in the last state, stall ? last : 0, out of the conditional on disabled (8836-8842, 9127-9133). *)
    Definition code_idx (s : nat) : nat :=
      if Nat.eqb (r_idx q s) 0 then 0
      else if in_last s then (if stall s then p_last P s else 0)
      else if disabled s then r_idx q s else o_next B s n (r_idx q s).
    (** Full: D = Q (8219), set at the end of the last state (8833, 9124), inside of the conditional. *)
    Definition code_full (s : nat) : bool := if in_last s && negb (disabled s) then true else r_full q s.
    (** The variable: captured in the last state of the first stage (9346-9370), assigned by the code in the next stages. *)
    Definition code_t (s : nat) : A :=
      if Nat.eqb s fw then (if in_last s then o_src B n else r_t q s)
      else if Nat.eqb (r_idx q s) 0 then r_t q s else o_proc B s n (r_idx q s) (r_t q s).

    (** The triggers, from the last stage to the first, 10550-10596. Ready: 7902-7906. *)
    Definition ready (s : nat) : bool := in_last s || Nat.eqb (r_idx q s) 0.
    Definition fires (s : nat) (full : nat -> bool) : bool :=
      ready s && (if Nat.eqb s 0 then o_go B n else full (s - 1) && negb (stall (s - 1)))
      && (Nat.eqb (S s) (p_num P) || negb (full s)) && negb (stall s).
    Definition set {T : Type} (f : nat -> T) (k : nat) (v : T) : nat -> T := fun x => if Nat.eqb x k then v else f x.
    Fixpoint triggers (k : nat) (idx : nat -> nat) (full : nat -> bool) : (nat -> nat) * (nat -> bool) :=
      match k with
      | O => (idx, full)
      | S s => if fires s full then triggers s (set idx s (p_entry P s)) (if Nat.eqb s 0 then full else set full (s - 1) false) else triggers s idx full
      end.

    (** The clock edge, without reset: 8057-8078; the registers of the variable: writeVarFlipFlopUpdate, 7951-7968. *)
    Definition step : pst A :=
      let (i, f) := triggers (p_num P) code_idx code_full in
      {| r_idx := i; r_full := f;
         r_t := fun s => if (fw <? s) && Nat.eqb (i s) (p_entry P s) && negb (stall s) then code_t (s - 1) else code_t s |}.
    (** The done signal, as far as this pipeline is concerned: 10066-10078. *)
    Definition drained : bool :=
      forallb (fun s => Nat.eqb (r_idx q s) 0 && (Nat.eqb (S s) (p_num P) || negb (r_full q s))) (seq 0 (p_num P)).
  End Cycle.

  (** The reset state, and the registers after [n] cycles. [t0]: content of the registers without initialization. *)
  Definition start (t0 : nat -> A) : pst A := {| r_idx := fun _ => 0; r_full := fun _ => false; r_t := t0 |}.
  Fixpoint run (t0 : nat -> A) (n : nat) : pst A := match n with O => start t0 | S m => step m (run t0 m) end.
End Pipeline.

(** * Condition on the parent. fsmNextState, 4418-4428, on the machine of the parent: [started] is autorun, or run when the algorithm is called. *)
Definition next_state (started : bool) (entry d : nat) : nat := if negb started then entry else d.
Definition parent_active (started : bool) (entry d trigger : nat) : bool := Nat.eqb (next_state started entry d) trigger.
(** Update of the index of the root machine (8030-8042), and of the machine of a stage (8057-8066), without reset. *)
Definition root_edge (started : bool) (entry d : nat) : nat := next_state started entry d.
Definition stage_edge (started : bool) (entry d : nat) : nat := d.

(** * The done signal, 10051-10080: the root machine is in the termination state, autorun is over, and all the pipelines are drained. *)
Definition done_signal {A : Type} (auto autorun : bool) (root : nat) (pips : list (pipeline * pst A)) : bool :=
  Nat.eqb root 0 && (if auto then autorun else true) && forallb (fun p => drained (fst p) (snd p)) pips.
