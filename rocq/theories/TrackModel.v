(** Expression trackers: variables declared with <: or <:: and an expression. *)
From Coq Require Import List Bool Arith ZArith.
Import ListNotations.
From Verif Require Import FsmModel FsmRun UseModel UseProofs DefineModel DefineProofs DefineSim DefineCycle.
From Verif Require DepModel.

(** gatherDeclarationWire, src/Algorithm.cpp 586-608: a variable having the usage e_Wire and its expression. [t_late]: declared with <::
    (or ::=). The width given to the tracker is part of the expression (its operators are functions on integers). *)
Record trk := { t_var : var; t_late : bool; t_exp : expr }.
Definition named (x : var) (k : trk) : bool := Nat.eqb x (t_var k).

Section Trackers.
  Variable ts : list trk.        (* m_WireAssignments, in the order of the declarations *)

  Definition isw (x : var) : bool := existsb (named x) ts.

  (** * The text of the wire.
      writeWireAssignements, src/Algorithm.cpp 7694-7736 and rewriteIdentifier 1559-1675: variables are read on their D side for <:, on their Q side
      for <::, trackers by the name of their wire ([VD] of a tracker; a tracker has a single value per cycle). ':x' is written as x (1754-1759).
      Trackers never read, which get no assignment (7713), are written here too. *)
  Fixpoint text (late : bool) (e : expr) : vexp :=
    match e with
    | EC n => VC n
    | EV x => if isw x then VD x else if late then VQ x else VD x
    | EU f a => VU f (text late a)
    | EB f a b => VB f (text late a) (text late b)
    end.
  Definition wtext (k : trk) : vexp := text (t_late k) (t_exp k).

  (** * The circuit.
      The body is written by writeAsModule (10460-10605, [UseModel.module_use]) where trackers are read by name ([krw] with [isw] for the
      variables having a single side). Between two clock edges the wires and the combinational block settle: each wire has the value
      of its expression on the final values of the variables, and the block has been run with the values of the wires. *)
  Definition wired (Q W : store) : store := fun x => if isw x then W x else Q x.
  Definition settled (o : kout) (Q D0 W : store) (idx : nat) (E : store) (i : nat) : Prop :=
    kcycle o (wired Q W) (wired D0 W) idx = Some (E, i) /\ forall k, In k ts -> W (t_var k) = veval (wired Q W) E (wtext k).

  (** * Trackers replaced by their expressions, [n] levels. *)
  Fixpoint inl (n : nat) (x : var) : vexp :=
    match n with
    | O => VD x
    | S m => match find (named x) ts with Some k => sub isw (inl m) (wtext k) | None => VD x end
    end.
  Definition meaning (x : var) : vexp := inl (length ts) x.
  (** No tracker is left. *)
  Definition flat : bool := forallb (fun k => forallb (fun y => negb (isw y)) (dv (meaning (t_var k)))) ts.

  (** * Assignments made after a tracker has been read. [after]: the variables assigned afterwards. *)
  Fixpoint asg (c : vst) : list var :=
    let all := fix all (l : list vst) : list var := match l with [] => [] | c :: r => asg c ++ all r end in
    match c with
    | VSet x _ => [x]
    | VIdx _ => []
    | VIf _ a b => all a ++ all b
    | VCase _ cs => (fix go (cs : list (option Z * list vst)) : list var := match cs with [] => [] | (_, l) :: r => all l ++ go r end) cs
    end.
  Definition asgs (l : list vst) : list var := concat (map asg l).

  Fixpoint qv (e : vexp) : list var :=
    match e with VC _ | VD _ => [] | VQ x => [x] | VU _ a => qv a | VB _ a b => qv a ++ qv b end.
  (** The trackers of a text do not see [after]; they are never named by their Q side. *)
  Definition calm (after : list var) (e : vexp) : bool :=
    forallb (fun y => if isw y then forallb (fun z => negb (memb z after)) (dv (meaning y)) else true) (dv e) &&
    forallb (fun y => negb (isw y)) (qv e).
  Fixpoint late (after : list var) (c : vst) : bool :=
    let all := fix all (l : list vst) : bool := match l with [] => true | c :: r => late (asgs r ++ after) c && all r end in
    match c with
    | VSet x e => calm (x :: after) e
    | VIdx _ => true
    | VIf e a b => calm (asgs a ++ asgs b ++ after) e && (all a && all b)
    | VCase e cs => calm (concat (map (fun c => asgs (snd c)) cs) ++ after) e &&
        (fix go (cs : list (option Z * list vst)) : bool := match cs with [] => true | (_, l) :: r => all l && go r end) cs
    end.
  Fixpoint lates (after : list var) (l : list vst) : bool :=
    match l with [] => true | c :: r => late (asgs r ++ after) c && lates after r end.
  (** always_before, a state, always_after. *)
  Definition late_out (o : kout) : bool :=
    lates (concat (map (fun a => asgs (snd a)) (o_arms o)) ++ asgs (o_post o)) (o_pre o) &&
    forallb (fun a => lates (asgs (o_post o)) (snd a)) (o_arms o) &&
    lates [] (o_post o).
  (** 8516-8518: assigning a tracker is an error. *)
  Definition unassigned (o : kout) : bool :=
    forallb (fun x => negb (isw x)) (asgs (o_pre o) ++ concat (map (fun a => asgs (snd a)) (o_arms o)) ++ asgs (o_post o)).

  (** * The checks made while writing, without conditionals and instances. *)

  (** updateAndCheckDependencies, src/Algorithm.cpp 4883-4897: "variable assignement leads to a combinational cycle through variable bound to
      expression". *)
  Definition wloop (n : nat) (d : DepModel.deps) (w : var) : bool :=
    existsb (fun x => DepModel.present (DepModel.dep d w x) && DepModel.written d x && isw x && DepModel.present (DepModel.dep d x w)) (seq 0 n).
  (** 4898-4926: "variable assignement changes the value of a <: tracked expression that was assigned before". The test at 4912-4914 looks at the
      tracker ([t_var k]) and not at the variable depending on it ([v]). *)
  Definition tracked_before (n : nat) (d : DepModel.deps) (w : var) : bool :=
    existsb (fun k => DepModel.written d (t_var k) && DepModel.present (DepModel.dep d (t_var k) w) &&
      existsb (fun v => DepModel.written d v && DepModel.present (DepModel.dep d v (t_var k)) && negb (isw (t_var k))) (seq 0 n)) ts.
  (** updateAndCheckDependencies, 4776-4930, without the checks through instances (4838-4880). *)
  Definition wupdate (n : nat) (d : DepModel.deps) (i : DepModel.instr) : option DepModel.deps :=
    match DepModel.update n d i with
    | None => None
    | Some d1 => if existsb (fun w => wloop n d1 w || tracked_before n d1 w) (DepModel.i_written i) then None else Some d1
    end.
  (** writeWireAssignements 7718-7733: the dependencies of a <:: are forgotten. *)
  Fixpoint wires_deps (n : nat) (ks : list trk) (d : DepModel.deps) : option DepModel.deps :=
    match ks with
    | [] => Some d
    | k :: r =>
        match wupdate n d {| DepModel.i_read := evars (t_exp k); DepModel.i_written := [t_var k] |} with
        | None => None
        | Some d1 => wires_deps n r (if t_late k then d else d1)
        end
    end.
  (** writeBlock 8505-8524 on the assignments of an always block. *)
  Fixpoint body_deps (n : nat) (b : list (var * expr)) (d : DepModel.deps) : option DepModel.deps :=
    match b with
    | [] => Some d
    | (x, e) :: r =>
        if isw x then None
        else match wupdate n d {| DepModel.i_read := evars e; DepModel.i_written := [x] |} with
             | None => None
             | Some d1 => body_deps n r d1
             end
    end.
  (** The same with conditionals (writeStatelessBlockGraph 8834-8902, [DepModel.run_code]): each branch starts from the dependencies before, both are
      merged into them; the test records no dependency. Other instructions: [None]. *)
  Fixpoint code_deps (n : nat) (c : ch) (d : DepModel.deps) : option DepModel.deps :=
    let all := fix all (l : list ch) (d : DepModel.deps) : option DepModel.deps :=
      match l with [] => Some d | c :: r => match code_deps n c d with Some d1 => all r d1 | None => None end end in
    match c with
    | KSet x e => if isw x then None else wupdate n d {| DepModel.i_read := evars e; DepModel.i_written := [x] |}
    | KRead _ => Some d
    | KIf _ a b => match all a d, all b d with Some d1, Some d2 => Some (DepModel.merge d2 (DepModel.merge d1 d)) | _, _ => None end
    | _ => None
    end.
  Fixpoint codes_deps (n : nat) (l : list ch) (d : DepModel.deps) : option DepModel.deps :=
    match l with [] => Some d | c :: r => match code_deps n c d with Some d1 => codes_deps n r d1 | None => None end end.

  (** writeAsModule 10464-10520, without instances: the wires, then the body. *)
  Definition accepted_code (n : nat) (l : list ch) : bool :=
    match wires_deps n ts DepModel.no_deps with
    | None => false
    | Some d => match codes_deps n l d with Some _ => true | None => false end
    end.
  Definition accepted (n : nat) (b : list (var * expr)) : bool :=
    match wires_deps n ts DepModel.no_deps with
    | None => false
    | Some d => match body_deps n b d with Some _ => true | None => false end
    end.
End Trackers.

(** An always block of assignments and its circuit. *)
Definition sets (b : list (var * expr)) : list ch := map (fun a => KSet (fst a) (snd a)) b.
Definition always_code (l : list ch) : kmod := {| k_pre := l; k_states := []; k_post := []; k_q := fun _ => false; k_d := [] |}.
Definition always_of (b : list (var * expr)) : kmod :=
  {| k_pre := map (fun a => KSet (fst a) (snd a)) b; k_states := []; k_post := []; k_q := fun _ => false; k_d := [] |}.
Definition circuit (ts : list trk) (b : list (var * expr)) : kout := module_use (isw ts) (always_of b).
