(** Combinational dependencies of the variables written in a cycle. *)
From Coq Require Import List Bool Arith.
Import ListNotations.

(** Variables are numbered, in the order of their names. *)
Definition var := nat.

(** [e_FFUsage], src/Algorithm.h, restricted to e_D and e_Q. An entry present in the map of the code always
    has one of the bits, so no bit stands for an absent entry. *)
Record ffu := { fD : bool; fQ : bool }.
Definition f0 := {| fD := false; fQ := false |}.
Definition for_ (a b : ffu) := {| fD := fD a || fD b; fQ := fQ a || fQ b |}.
Definition present (a : ffu) := fD a || fQ a.
Definition ffu_eqb (a b : ffu) := Bool.eqb (fD a) (fD b) && Bool.eqb (fQ a) (fQ b).

(** [t_vio_dependencies], src/Algorithm.h: [written] are the keys of the map. *)
Record deps := { dep : var -> var -> ffu; written : var -> bool }.

Definition mem (v : var) (l : list var) : bool := existsb (Nat.eqb v) l.

(** A row as a table (for evaluation). *)
Definition tab (n : nat) (row : var -> ffu) : var -> ffu := let t := map row (seq 0 n) in fun r => nth r t f0.

(** Body of the loop on [w], src/Algorithm.cpp 4714-4736. [n] is the number of variables. *)
Definition close_row (n : nat) (d : deps) (w : var) : var -> ffu := tab n (fun r =>
  fold_left (fun acc k => if present (dep d w k) && written d k then for_ acc (dep d k r) else acc) (seq 0 n) (dep d w r)).

Definition set_row (d : deps) (w : var) (row : var -> ffu) : deps :=
  {| dep := fun x => if x =? w then row else dep d x; written := written d |}.

Definition row_changed (n : nat) (a b : var -> ffu) : bool := existsb (fun r => negb (ffu_eqb (a r) (b r))) (seq 0 n).

Fixpoint sweep (n : nat) (ks : list var) (d : deps) (changed : bool) : deps * bool :=
  match ks with
  | [] => (d, changed)
  | w :: ks' =>
      let row := close_row n d w in
      sweep n ks' (set_row d w row) (changed || row_changed n (dep d w) row)
  end.

(** [dependencyClosure], src/Algorithm.cpp 4706-4737. *)
Fixpoint closure (n fuel : nat) (d : deps) : option deps :=
  match fuel with
  | O => None
  | S f => let (d', ch) := sweep n (filter (written d) (seq 0 n)) d false in if ch then closure n f d' else Some d'
  end.

Definition fuel_for (n : nat) : nat := S (2 * n * n).

(** An instruction by the variables it reads and writes ([determineVIOAccess]). *)
Record instr := { i_read : list var; i_written : list var }.

(** [updateAndCheckDependencies], src/Algorithm.cpp 4776-4837: [None] is the error "variable assignement leads to a
    combinational cycle". The checks through instances and tracked expressions (4838-4916) are not modelled. *)
Definition update (n : nat) (d : deps) (i : instr) : option deps :=
  let row := fun r => if mem r (i_read i) then (if written d r then {| fD := true; fQ := false |} else {| fD := false; fQ := true |}) else f0 in
  let d0 := {| dep := fun w => if mem w (i_written i) then row else dep d w;
               written := fun w => written d w || mem w (i_written i) |} in
  match closure n (fuel_for n) d0 with
  | None => None
  | Some d1 => if existsb (fun w => fD (dep d1 w w)) (i_written i) then None else Some d1
  end.

Definition no_deps : deps := {| dep := fun _ _ => f0; written := fun _ => false |}.

Fixpoint run (n : nat) (d : deps) (p : list instr) : option deps :=
  match p with
  | [] => Some d
  | i :: p' => match update n d i with Some d' => run n d' p' | None => None end
  end.

(** [mergeDependenciesInto], src/Algorithm.cpp 4964-4970: [std::unordered_map::insert] keeps existing entries. *)
Definition merge (src dst : deps) : deps :=
  {| dep := fun w => if written dst w then dep dst w else dep src w; written := fun w => written dst w || written src w |}.

(** Conditionals without states, src/Algorithm.cpp 8864-8902: each branch starts from the dependencies before, then both are merged
    into them. The test only reads: no dependency is recorded for it. *)
Inductive code := Ins (i : instr) | IfElse (test : list var) (c1 c2 : list code).

Fixpoint run_code (n : nat) (d : deps) (c : code) : option deps :=
  match c with
  | Ins i => update n d i
  | IfElse _ c1 c2 =>
      let runl := fix runl (d : deps) (l : list code) : option deps :=
        match l with [] => Some d | x :: l' => match run_code n d x with Some d' => runl d' l' | None => None end end in
      match runl d c1, runl d c2 with
      | Some d1, Some d2 => Some (merge d2 (merge d1 d))
      | _, _ => None
      end
  end.
Fixpoint run_codes (n : nat) (d : deps) (l : list code) : option deps :=
  match l with [] => Some d | x :: l' => match run_code n d x with Some d' => run_codes n d' l' | None => None end end.
