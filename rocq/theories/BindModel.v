(** Units instantiated in a unit: on which side of the registers their ports are connected, and the search for combinational loops. *)
From Coq Require Import List Bool Arith ZArith.
Import ListNotations.
From Verif Require Import FsmModel FsmRun.
From Verif Require DepModel.

(** * Instances and their ports. *)

(** Binding of an input: <: (e_Left) or <:: (e_LeftQ), src/Algorithm.h t_binding_nfo. *)
Inductive conn := CL (x : var) | CQ (x : var).
(** An input: the variable named after the instance and the port (used by the dot syntax) and its binding. *)
Record inp := { in_own : var; in_bnd : option conn }.
(** An output: its variable in the instantiated unit, output! ([out_comb]), output(!) ([out_nocheck]), the variable named after the instance and the
    port, and the variable bound with :> . *)
Record outp := { out_var : var; out_comb : bool; out_nocheck : bool; out_own : var; out_bnd : option var }.
(** An instance: callable or not (isNotCallable, src/Algorithm.cpp 4693-4702), <reginputs>, its ports, and what the unit computes in a cycle from its registers and
    its inputs (the D sides of its registers). Bindings are taken inputs first ([findBindingRight] takes the first one in the order of the text). *)
Record inst := { n_call : bool; n_reg : bool; n_ins : list inp; n_outs : list outp; n_unit : store -> list Z -> store }.

(** Ports of instances, src/Algorithm.cpp 10117-10178: bound inputs are connected to the D side (<:) or to the Q side (<::) of the variable, other inputs
    to their own variable, on the D side when the unit is not callable and has no <reginputs>. *)
Definition in_side (k : inst) (p : inp) : conn :=
  match in_bnd p with
  | Some c => c
  | None => if negb (n_call k) && negb (n_reg k) then CL (in_own p) else CQ (in_own p)
  end.

(** Variables of the parent that are wires of outputs: createInstancedBlueprintInputOutputVars 6509-6517 and determineBlueprintBoundVIO 6303-6317. *)
Definition out_names (o : outp) : list var := out_own o :: match out_bnd o with Some x => [x] | None => [] end.
Definition wires_of (k : inst) : list var := flat_map out_names (n_outs k).
Definition wires (ks : list inst) : list var := flat_map wires_of ks.
Definition iswire (ks : list inst) (x : var) : bool := existsb (Nat.eqb x) (wires ks).

(** * A cycle. *)

(** The combinational block of the parent: assignments in sequence and conditionals. Variables are read after the assignments made before in the cycle, else in their register
    or input (C14), outputs of instances on their wire (rewriteBinding, 1455-1480). *)
Inductive cmd := Put (x : var) (e : expr) | Cond (e : expr) (a b : list cmd).
Fixpoint exec1 (c : cmd) (s : store) : store :=
  let all := fix all (l : list cmd) (s : store) : store := match l with [] => s | c :: r => all r (exec1 c s) end in
  match c with
  | Put x e => upd s x (eval s e)
  | Cond e a b => if truth (eval s e) then all a s else all b s
  end.
Fixpoint exec (l : list cmd) (s : store) : store := match l with [] => s | c :: r => exec r (exec1 c s) end.

Definition side (Q E : store) (c : conn) : Z := match c with CL x => E x | CQ x => Q x end.
Definition given (Q E : store) (k : inst) : list Z := map (fun p => side Q E (in_side k p)) (n_ins k).

Section Net.
  Variable ks : list inst.
  Variable body : list cmd.

  (** [Q]: registers and inputs of the parent, [W]: wires of outputs. *)
  Definition wired (Q W : store) : store := fun x => if iswire ks x then W x else Q x.
  (** Output assignments of the instantiated unit, 10031-10050: the D side for output!, the Q side otherwise. [C]: registers of the instances. *)
  Definition outval (Q : store) (C : nat -> store) (E : store) (i : nat) (k : inst) (o : outp) : Z :=
    if out_comb o then n_unit k (C i) (given Q E k) (out_var o) else C i (out_var o).
  (** Between two clock edges: [E] are the values at the end of the block, every wire has the value of its output. *)
  Definition settled (Q : store) (C : nat -> store) (W E : store) : Prop :=
    (forall x, E x = exec body (wired Q W) x) /\
    (forall i k o x, nth_error ks i = Some k -> In o (n_outs k) -> In x (out_names o) -> W x = outval Q C E i k o).

  (** Clock edges: registers of the parent and of the instances take their D side. [pin]: inputs of the parent, which are given. *)
  Record cyc := { y_Q : store; y_C : nat -> store; y_W : store; y_E : store }.
  Definition trace (pin : var -> bool) (f : nat -> cyc) : Prop := forall t,
    settled (y_Q (f t)) (y_C (f t)) (y_W (f t)) (y_E (f t)) /\
    (forall x, pin x = false -> iswire ks x = false -> y_Q (f (S t)) x = y_E (f t) x) /\
    (forall i k x, nth_error ks i = Some k -> y_C (f (S t)) i x = n_unit k (y_C (f t) i) (given (y_Q (f t)) (y_E (f t)) k) x).

  (** * Checks. *)

  Definition checked (o : outp) : bool := out_comb o && negb (out_nocheck o).
  Definition reads (k : inst) (y : var) : bool := existsb (fun p => match in_bnd p with Some (CL x) | Some (CQ x) => Nat.eqb x y | None => false end) (n_ins k).
  Definition drives (y : var) (o : outp) : bool := match out_bnd o with Some x => Nat.eqb x y | None => false end.
  (** findBindingRight 9699-9709 then 4871-4873. *)
  Definition bound_right (k : inst) (y : var) : bool :=
    if reads k y then false else match find (drives y) (n_outs k) with Some o => checked o | None => false end.
  (** updateAndCheckDependencies, 4838-4880: only when the variable depends on itself (on either side) the outputs it depends on are looked at. For bound
      variables nothing more is asked (4866-4878). *)
  Definition iloop (n : nat) (d : DepModel.deps) (w : var) : bool :=
    DepModel.present (DepModel.dep d w w) &&
    existsb (fun y => negb (Nat.eqb y w) && DepModel.present (DepModel.dep d w y) &&
      (existsb (fun k => existsb (fun o => checked o && Nat.eqb (out_own o) y && DepModel.written d y && DepModel.present (DepModel.dep d y w)) (n_outs k)) ks ||
       existsb (fun k => bound_right k y) ks)) (seq 0 n).
  (** updateAndCheckDependencies, 4776-4880 (no tracked expression, see TrackModel). *)
  Definition iupdate (n : nat) (d : DepModel.deps) (i : DepModel.instr) : option DepModel.deps :=
    match DepModel.update n d i with
    | None => None
    | Some d1 => if existsb (iloop n d1) (DepModel.i_written i) then None else Some d1
    end.

  (** writeAsModule 10250-10299, one instance. *)
  Definition comb_ins (k : inst) : list var :=
    flat_map (fun p => match in_bnd p with Some (CL x) => [x] | _ => [] end) (n_ins k) ++ map in_own (n_ins k).
  Definition comb_outs (k : inst) : list var :=
    flat_map (fun o => if checked o then match out_bnd o with Some x => [x] | None => [] end else []) (n_outs k) ++
    flat_map (fun o => if checked o then [out_own o] else []) (n_outs k).
  Definition skipped (k : inst) : bool := n_call k || n_reg k.
  Definition selfloop (n : nat) (d : DepModel.deps) : bool := existsb (fun x => DepModel.written d x && DepModel.present (DepModel.dep d x x)) (seq 0 n).
  Definition inst_deps (n : nat) (d : DepModel.deps) (k : inst) : option DepModel.deps :=
    if skipped k then Some d
    else match iupdate n d {| DepModel.i_read := comb_ins k; DepModel.i_written := comb_outs k |} with
         | None => None
         | Some d1 => if selfloop n d1 then None else Some d1
         end.
  Fixpoint insts_deps (n : nat) (l : list inst) (d : DepModel.deps) : option DepModel.deps :=
    match l with [] => Some d | k :: r => match inst_deps n d k with Some d1 => insts_deps n r d1 | None => None end end.

  (** The block: each assignment (8505-8524, 4740-4772), branches from the dependencies before, then merged (8864-8902); tests record no dependency. Assigning a variable
      bound to an output is an error (5931-5934). *)
  Fixpoint cmd_deps (n : nat) (c : cmd) (d : DepModel.deps) : option DepModel.deps :=
    let all := fix all (l : list cmd) (d : DepModel.deps) : option DepModel.deps :=
      match l with [] => Some d | c :: r => match cmd_deps n c d with Some d1 => all r d1 | None => None end end in
    match c with
    | Put x e => if iswire ks x then None else iupdate n d {| DepModel.i_read := evars e; DepModel.i_written := [x] |}
    | Cond _ a b => match all a d, all b d with Some d1, Some d2 => Some (DepModel.merge d2 (DepModel.merge d1 d)) | _, _ => None end
    end.
  Fixpoint cmds_deps (n : nat) (l : list cmd) (d : DepModel.deps) : option DepModel.deps :=
    match l with [] => Some d | c :: r => match cmd_deps n c d with Some d1 => cmds_deps n r d1 | None => None end end.

  (** 10143-10163: <:: on an input or on a variable bound to an output is an error. *)
  Definition late_ok (pin : var -> bool) : bool :=
    forallb (fun k => forallb (fun p => match in_bnd p with Some (CQ x) => negb (pin x) && negb (iswire ks x) | _ => true end) (n_ins k)) ks.

  Definition accepted (pin : var -> bool) (n : nat) : bool :=
    late_ok pin &&
    match insts_deps n ks DepModel.no_deps with
    | None => false
    | Some d => match cmds_deps n body d with Some _ => true | None => false end
    end.
End Net.

(** A unit made of an always block (no state, no instance): inputs [ins], then the block. *)
Fixpoint feed (ins : list var) (vs : list Z) (s : store) : store :=
  match ins, vs with x :: r, v :: vr => feed r vr (upd s x v) | _, _ => s end.
Definition unit_of (ins : list var) (l : list cmd) : store -> list Z -> store := fun q vs => exec l (feed ins vs q).
