(** Connections of the ports of instances. The right side of a binding is an identifier of the algorithm: ranges
    and parts are in BindingModel.v. Names given by groups and interfaces are those of the members. Translation of
    names by blocks (translateVIOName) is not included, neither are the widths (lintBinding, warnings only). *)
From Coq Require Import String List Bool.
Import ListNotations.
Open Scope string_scope.

(** The ports of a blueprint: inputs, outputs, inouts (src/Blueprint.h 201-215).
    [bp_comb]: which outputs are combinational, for the blueprints with hasOutputCombinationalInfo.
    [bp_callable]: the negation of isNotCallable. *)
Record bp := { bp_in : list string; bp_out : list string; bp_io : list string;
  bp_comb : option (string -> bool); bp_callable : bool }.

(** The algorithm with the instances: m_InputNames, m_OutputNames, m_InOutNames, m_VarNames, the outputs declared
    with [output!], m_VIOGroups with getGroupMembers, m_Clock, m_Reset (src/Algorithm.h 121-124), and the variables
    and outputs written by its instructions (e_WriteOnly, src/Algorithm.cpp 6019-6021). *)
Record alg := { a_in : list string; a_out : list string; a_io : list string; a_var : list string;
  a_comb : string -> bool; a_grp : string -> option (list string); a_clock : string; a_reset : string;
  a_writes : list string }.

Definition mem (x : string) (l : list string) : bool := existsb (String.eqb x) l.

(** A binding in the source: the operators [<:], [<::], [:>], [<:>], [<::>] (antlr/silice.g4 136-140, 227). *)
Inductive op := OLeft | OLeftQ | ORight | OBi | OBiQ.
Record written := { w_left : string; w_op : op; w_right : string }.

(** An instance (gatherDeclarationInstance, src/Algorithm.cpp 1314-1391): its name, blueprint, whether [<:auto:>] is
    given, whether [reginput] is given, the variables declared before it, its bindings. *)
Record inst := { i_name : string; i_bp : bp; i_auto : bool; i_reg : bool; i_vars : list string;
  i_written : list written }.

(** [t_binding_nfo] with [e_BindingDir] (src/Algorithm.h 114). *)
Inductive dir := DLeft | DLeftQ | DRight | DBi | DAuto | DAutoQ.
Record bnd := { b_left : string; b_right : string; b_dir : dir }.
Definition mkb (l r : string) (d : dir) : bnd := {| b_left := l; b_right := r; b_dir := d |}.

(** [getBindings], src/Algorithm.cpp 1037-1115. [None]: reportError. *)
Definition group_of (a : alg) (w : written) : option (list string) :=
  match w_op w with
  | OBi | OBiQ => if mem (w_right w) (a_io a) then None else a_grp a (w_right w)
  | _ => None
  end.
Definition get_binding (a : alg) (w : written) : option (list bnd) :=
  match group_of a w with
  | Some ms =>
      Some (map (fun m => mkb (w_left w ++ "_" ++ m) (w_right w ++ "_" ++ m)
                            match w_op w with OBi => DAuto | _ => DAutoQ end) ms)
  | None =>
      match w_op w with
      | OLeft => Some [mkb (w_left w) (w_right w) DLeft]
      | OLeftQ => Some [mkb (w_left w) (w_right w) DLeftQ]
      | ORight => Some [mkb (w_left w) (w_right w) DRight]
      | OBi => Some [mkb (w_left w) (w_right w) DBi]
      | OBiQ => None
      end
  end.
Fixpoint get_bindings (a : alg) (l : list written) : option (list bnd) :=
  match l with
  | [] => Some []
  | w :: l' =>
      match get_binding a w, get_bindings a l' with
      | Some x, Some y => Some (x ++ y)%list
      | _, _ => None
      end
  end.

(** [resolveInstancedBlueprintBindingDirections], src/Algorithm.cpp 303-332. *)
Definition resolve_dir (p : bp) (b : bnd) : list bnd :=
  match b_dir b with
  | DAuto | DAutoQ =>
      if mem (b_left b) (bp_in p) then
        [mkb (b_left b) (b_right b) match b_dir b with DAuto => DLeft | _ => DLeftQ end]
      else if mem (b_left b) (bp_out p) then [mkb (b_left b) (b_right b) DRight]
      else if mem (b_left b) (bp_io p) then [mkb (b_left b) (b_right b) DBi]
      else []
  | _ => [b]
  end.
Definition resolve_dirs (p : bp) (l : list bnd) : list bnd := flat_map (resolve_dir p) l.

(** [autobindInstancedBlueprint], src/Algorithm.cpp 198-299. *)
Definition auto1 (defined cands : list string) (d : dir) (io : string) : list bnd :=
  if mem io defined then [] else if mem io cands then [mkb io io d] else [].
Definition autobind (a : alg) (vars : list string) (p : bp) (l : list bnd) : list bnd :=
  let defined := map b_left l in
  (l ++ flat_map (auto1 defined (a_in a ++ vars) DLeft) (bp_in p)
     ++ flat_map (auto1 defined (bp_in p) DLeft) ["clock"; "reset"]
     ++ flat_map (auto1 defined (a_out a ++ vars) DRight) (bp_out p)
     ++ flat_map (auto1 defined (a_io a ++ vars) DBi) (bp_io p))%list.

(** The bindings of an instance: [gatherDeclarationInstance] then [instantiateBlueprint], src/Algorithm.cpp
    1383-1386, 1290-1296. *)
Definition bindings (a : alg) (i : inst) : option (list bnd) :=
  match get_bindings a (i_written i) with
  | Some bs =>
      let bs := resolve_dirs (i_bp i) bs in
      Some (if i_auto i then autobind a (i_vars i) (i_bp i) bs else bs)
  | None => None
  end.

(** [checkBlueprintsBindings], src/Algorithm.cpp 113-194. The assertion of line 161 follows from the tests before it
    for blueprints without an input and an output of the same name. *)
Definition is_left (d : dir) : bool := match d with DLeft | DLeftQ => true | _ => false end.
Definition check1 (a : alg) (p : bp) (b : bnd) : bool :=
  let i := mem (b_left b) (bp_in p) in
  let o := mem (b_left b) (bp_out p) in
  let io := mem (b_left b) (bp_io p) in
  (i || o || io) && (if is_left (b_dir b) then i else true) &&
  match b_dir b with DRight => o | DBi => io | _ => true end &&
  mem (b_right b) (a_in a ++ a_out a ++ a_io a ++ a_var a ++ ["clock"; "reset"; a_clock a; a_reset a])%list &&
  match bp_comb p with
  | Some c => if o && mem (b_right b) (a_out a) then Bool.eqb (a_comb a (b_right b)) (c (b_left b)) else true
  | None => true
  end.
Definition inbound (l : list bnd) : list string := map b_right (filter (fun b => is_left (b_dir b)) l).
Definition check (a : alg) (p : bp) (l : list bnd) : bool :=
  forallb (check1 a p) l &&
  forallb (fun b => match b_dir b with
                    | DRight => negb (mem (b_right b) (inbound l)) || mem (b_right b) (a_io a)
                    | _ => true
                    end) l.

(** [updateAccessFromBinding], src/Algorithm.cpp 5926-5935: variables and outputs bound to the output of an instance
    are not written by the algorithm. *)
Definition access_ok (a : alg) (l : list bnd) : bool :=
  forallb (fun b => match b_dir b with
                    | DRight => negb (mem (b_right b) (a_var a ++ a_out a)%list && mem (b_right b) (a_writes a))
                    | _ => true
                    end) l.

(** [determineBlueprintBoundVIO], src/Algorithm.cpp 6303-6317, 6325-6331: names bound to the output of an instance
    (m_VIOBoundToBlueprintOutputs), the instances being visited in the order of an unordered_map. *)
Definition bmap := list (string * (string * string)).
Fixpoint lookup (x : string) (m : bmap) : option (string * string) :=
  match m with
  | [] => None
  | (y, e) :: m' => if String.eqb x y then Some e else lookup x m'
  end.
Fixpoint bound1 (n : string) (l : list bnd) (m : bmap) : option bmap :=
  match l with
  | [] => Some m
  | b :: l' =>
      match b_dir b with
      | DRight =>
          match lookup (b_right b) m with
          | Some _ => None
          | None => bound1 n l' ((b_right b, (n, b_left b)) :: m)
          end
      | DBi => match lookup (b_right b) m with Some _ => None | None => bound1 n l' m end
      | _ => bound1 n l' m
      end
  end.
Fixpoint bound_all (l : list (inst * list bnd)) (m : bmap) : option bmap :=
  match l with
  | [] => Some m
  | (i, bs) :: l' => match bound1 (i_name i) bs m with Some m' => bound_all l' m' | None => None end
  end.
(** The entries made when the instances are declared, for the names [_inst_output] of the dot syntax:
    [createInstancedBlueprintInputOutputVars], src/Algorithm.cpp 6511-6517. *)
Definition own (i : inst) : bmap :=
  map (fun o => ("_" ++ i_name i ++ "_" ++ o, (i_name i, o))) (bp_out (i_bp i)).

(** [analyzeInstancedBlueprintInputs], src/Algorithm.cpp 6412-6422: insertion in a map keeps what is there. *)
Fixpoint bound_input (l : list bnd) (x : string) : option (string * bool) :=
  match l with
  | [] => None
  | b :: l' =>
      if is_left (b_dir b) && String.eqb (b_left b) x
      then Some (b_right b, match b_dir b with DLeftQ => true | _ => false end)
      else bound_input l' x
  end.

(** What a name is read as: [rewriteIdentifier], src/Algorithm.cpp 1571-1668. [NOwn x q]: the variable or output
    itself, on the side Q of its flip-flop if [q], else on the side D (a temporary, a constant and a tracker of an
    expression have a single side). *)
Inductive net := NGlobal (x : string) | NIn (x : string) | NIo (x : string) | NWire (i o : string) | NOwn (x : string) (q : bool).
Definition read (a : alg) (m : bmap) (x : string) (q : bool) : option net :=
  if mem x ["clock"; "reset"] then Some (NGlobal x)
  else if mem x [a_reset a; a_clock a] then
    match lookup x m with Some (i, o) => Some (NWire i o) | None => None end
  else if mem x (a_in a) then Some (NIn x)
  else if mem x (a_io a) then Some (NIo x)
  else match lookup x m with
    | Some (i, o) => Some (NWire i o)
    | None => Some (NOwn x q)
    end.

(** What is connected to an input, [writeAsModule], src/Algorithm.cpp 10117-10167. [None]: reportError. *)
Definition input_net (a : alg) (m : bmap) (i : inst) (l : list bnd) (x : string) : option net :=
  match bound_input l x with
  | Some (v, q) =>
      if q && (match lookup v m with Some _ => true | None => false end || mem v (a_in a) || mem v (a_io a))
      then None
      else read a m v q
  | None => Some (NOwn ("_" ++ i_name i ++ "_" ++ x) (negb (negb (bp_callable (i_bp i)) && negb (i_reg i))))
  end.

(** The whole: bindings of all instances, checks, bound names. The list is the order of the unordered_map. *)
Fixpoint gather (a : alg) (l : list inst) : option (list (inst * list bnd)) :=
  match l with
  | [] => Some []
  | i :: l' =>
      match bindings a i, gather a l' with
      | Some bs, Some r => Some ((i, bs) :: r)
      | _, _ => None
      end
  end.
Definition inputs_ok (a : alg) (m : bmap) (e : inst * list bnd) : bool :=
  forallb (fun x => match input_net a m (fst e) (snd e) x with Some _ => true | None => false end) (bp_in (i_bp (fst e))).
Definition compile (a : alg) (l : list inst) : option (list (inst * list bnd) * bmap) :=
  match gather a l with
  | None => None
  | Some r =>
      if forallb (fun e => check a (i_bp (fst e)) (snd e)) r && forallb (fun e => access_ok a (snd e)) r then
        match bound_all r (flat_map own l) with
        | None => None
        | Some m => if forallb (inputs_ok a m) r then Some (r, m) else None
        end
      else None
  end.
