(** Pipelines with one cycle per stage: variables trickling down the stages. *)
From Coq Require Import List Bool Arith ZArith.
Import ListNotations.
From Verif Require Import FsmModel FsmRun.

(** * Stages. Instructions of a stage without states: assignments and conditionals. Tables, ^=, v= and vv= are not modelled: the stages are written in their order
    (orderPipelineStages, src/Algorithm.cpp 9200-9268, without constraints), and nothing is added to the dependencies between stages (9333-9343). *)
Inductive pst := PAssign (x : var) (e : expr) | PIf (e : expr) (l1 l2 : list pst).
Definition stage := list pst.

(** Variables read and written by a stage: determineBlockVIOAccess, as gathered at 2587-2592, whatever the order in the stage. *)
Fixpoint preads1 (p : pst) : list var :=
  match p with PAssign _ e => evars e | PIf e l1 l2 => evars e ++ flat_map preads1 l1 ++ flat_map preads1 l2 end.
Fixpoint pwrites1 (p : pst) : list var :=
  match p with PAssign x _ => [x] | PIf _ l1 l2 => flat_map pwrites1 l1 ++ flat_map pwrites1 l2 end.
Definition preads (l : stage) : list var := flat_map preads1 l.
Definition pwrites (l : stage) : list var := flat_map pwrites1 l.

(** read_at and written_at, 2655-2660: the stages, in increasing order. *)
Definition stages_with {A} (acc : A -> list var) (ps : list A) (x : var) : list nat :=
  map fst (filter (fun sp => memb x (acc (snd sp))) (combine (seq 0 (length ps)) ps)).
(** First stage written, last stage read (front and back, 2669-2676 and 2690-2693). *)
Definition first_write (ps : list stage) (x : var) : option nat := hd_error (stages_with pwrites ps x).
Definition last_read (ps : list stage) (x : var) : option nat := hd_error (rev (stages_with preads ps x)).
(** The variable trickles when read in a stage after a write: 2666-2686. Range of stages of its registers, 2694, 2702. *)
Definition trickle (ps : list stage) (x : var) : option (nat * nat) :=
  match first_write ps x, last_read ps x with
  | Some fw, Some lr => if fw <? lr then Some (fw, lr) else None
  | _, _ => None
  end.

(** * Names. [T x s]: tricklingVIOName, 2447-2450. *)
Inductive name := V (x : var) | T (x : var) (s : nat).
Definition name_eqb (a b : name) : bool :=
  match a, b with V x, V y => Nat.eqb x y | T x s, T y t => Nat.eqb x y && Nat.eqb s t | _, _ => false end.
Definition nmem (a : name) (l : list name) : bool := existsb (name_eqb a) l.
Definition nstore := name -> Z.
Definition nupd (d : nstore) (a : name) (v : Z) : nstore := fun b => if name_eqb b a then v else d b.

(** translateVIOName in a stage, 1412-1422. *)
Definition tr (ps : list stage) (s : nat) (x : var) : name :=
  match trickle ps x with Some (fw, _) => if fw <? s then T x s else V x | None => V x end.
(** The registers exist for the stages of the range only (ForRange 2702-2722): a write after the last read designates no variable, which is reported as an error. *)
Definition declared (ps : list stage) (s : nat) (x : var) : bool :=
  match trickle ps x with Some (fw, lr) => if fw <? s then s <=? lr else true | None => true end.

(** * The code of a stage. Reading: the d side when the variable is in the dependencies, the q side otherwise (rewriteIdentifier, 1559-1675);
    the dependencies of both branches are merged after a conditional (writeStatelessBlockGraph). Rejected combinational cycles are not modelled. *)
Section Code.
  Variables (n : var -> name) (Q : nstore).
  Definition side (D : nstore) (deps : list name) (x : var) : Z := if nmem (n x) deps then D (n x) else Q (n x).
  Fixpoint code1 (p : pst) (s : nstore * list name) : nstore * list name :=
    match p with
    | PAssign x e => (nupd (fst s) (n x) (eval (side (fst s) (snd s)) e), n x :: snd s)
    | PIf e l1 l2 =>
        let go := fix go (l : list pst) (s : nstore * list name) := match l with [] => s | p :: r => go r (code1 p s) end in
        let s1 := go l1 s in
        let s2 := go l2 s in
        (fst (if truth (eval (side (fst s) (snd s)) e) then s1 else s2), snd s1 ++ snd s2)
    end.
  Fixpoint code (l : stage) (s : nstore * list name) : nstore * list name := match l with [] => s | p :: r => code r (code1 p s) end.
End Code.

(** writeStatelessPipeline, 9300-9385, from stage [s]. [deps]: dependencies before the pipeline, the same for each stage. After the first stage that writes it, the
    variable is captured: 9346-9370. [vars]: the variables of the algorithm. *)
Definition capture (ps : list stage) (s : nat) (D : nstore) (x : var) : nstore :=
  match trickle ps x with Some (fw, _) => if Nat.eqb s fw then nupd D (T x s) (D (V x)) else D | None => D end.
Fixpoint write_stages (ps : list stage) (vars : list var) (Q : nstore) (deps : list name) (s : nat) (l : list stage) (D : nstore) : nstore :=
  match l with
  | [] => D
  | p :: r => write_stages ps vars Q deps (S s) r (fold_left (capture ps s) vars (fst (code (tr ps s) Q p (D, deps))))
  end.

(** The clock edge: writeVarFlipFlopUpdate, 7949-7968, for stages without states, vio_prev_name being set for all but the first (2709-2712). *)
Definition edge (ps : list stage) (D : nstore) : nstore := fun a =>
  match a with
  | V x => D (V x)
  | T x s => match trickle ps x with Some (fw, lr) => if (fw <? s) && (s <=? lr) then D (T x (s - 1)) else D (T x s) | None => D (T x s) end
  end.

(** * The always block: [before] and [after] stand for everything before the pipeline (inputs included) and after it. *)
Record always := { w_before : nat -> nstore -> nstore; w_deps : list name; w_after : nat -> nstore -> nstore }.
Section Run.
  Variables (ps : list stage) (vars : list var) (w : always).
  (** d side, at the end of the pipeline in cycle [n], the registers being [Q]. *)
  Definition pipe (n : nat) (Q : nstore) : nstore := write_stages ps vars Q (w_deps w) 0 ps (w_before w n Q).
  Fixpoint regs (n : nat) (Q : nstore) : nstore := match n with O => Q | S n' => edge ps (w_after w n' (pipe n' (regs n' Q))) end.
End Run.
(** Accepted by the compiler. *)
Definition accepted (ps : list stage) : bool :=
  forallb (fun sp => forallb (declared ps (fst sp)) (preads (snd sp) ++ pwrites (snd sp))) (combine (seq 0 (length ps)) ps).
