(** Pipelines with the assignment operators ^=, v= and vv=. *)
From Coq Require Import List Bool Arith ZArith.
Import ListNotations.
From Verif Require Import FsmModel FsmRun PipeModel.
From Verif Require OrderModel.

(** * Stages. As in PipeModel (assignments and conditionals, no states), each assignment having an operator: =, ^= (ASSIGN_BACKWARD), v= (ASSIGN_FORWARD), vv= (ASSIGN_AFTER). *)
Inductive op := Plain | Back | Fwd | After.
Inductive ost := OAssign (o : op) (x : var) (e : expr) | OIf (e : expr) (l1 l2 : list ost).
Definition ostage := list ost.
(** The code written for an assignment does not depend on the operator: writeAssignement, src/Algorithm.cpp 7531-7609 (inside of a pipeline no operator is reported). *)
Fixpoint erase1 (p : ost) : pst :=
  match p with OAssign _ x e => PAssign x e | OIf e l1 l2 => PIf e (map erase1 l1) (map erase1 l2) end.
Definition erase (l : ostage) : stage := map erase1 l.

(** [determinePipelineSpecificAssignments], 5728-5764: the variables assigned with an operator in a stage. *)
Definition op_eqb (a b : op) : bool := match a, b with Plain, Plain | Back, Back | Fwd, Fwd | After, After => true | _, _ => false end.
Fixpoint with_op1 (o : op) (p : ost) : list var :=
  match p with OAssign o' x _ => if op_eqb o o' then [x] else [] | OIf _ l1 l2 => flat_map (with_op1 o) l1 ++ flat_map (with_op1 o) l2 end.
Definition with_op (o : op) (l : ostage) : list var := flat_map (with_op1 o) l.
(** ex_written, 2634-2636. *)
Definition special (l : ostage) : list var := with_op Back l ++ with_op Fwd l ++ with_op After l.
(** read and written for the stage, 2587-2596; written once the special ones are erased, 2637-2653. *)
Definition oreads (l : ostage) : list var := preads (erase l).
Definition oassigns (l : ostage) : list var := pwrites (erase l).
Definition owrites (l : ostage) : list var := filter (fun x => negb (memb x (special l))) (oassigns l).

(** The checks of gatherPipeline, stage after stage, 2597-2602 and 2638-2653. [sp]: written_special, [wr]: the variables of written_at. True: nothing reported. *)
Fixpoint checks (l : list ostage) (sp wr : list var) : bool :=
  match l with
  | [] => true
  | p :: r =>
      forallb (fun x => negb (memb x sp)) (oassigns p) &&
      forallb (fun x => negb (memb x sp) && negb (memb x (with_op Plain p)) && negb (memb x wr)) (special p) &&
      checks r (special p ++ sp) (owrites p ++ wr)
  end.

(** Trickling, 2654-2694: as in PipeModel, from the erased sets. *)
Definition otrickle (ps : list ostage) (x : var) : option (nat * nat) :=
  match hd_error (stages_with owrites ps x), hd_error (rev (stages_with oreads ps x)) with
  | Some fw, Some lr => if fw <? lr then Some (fw, lr) else None
  | _, _ => None
  end.
(** translateVIOName in a stage, 1412-1422. *)
Definition otr (ps : list ostage) (s : nat) (x : var) : name :=
  match otrickle ps x with Some (fw, _) => if fw <? s then T x s else V x | None => V x end.
Definition odeclared (ps : list ostage) (s : nat) (x : var) : bool :=
  match otrickle ps x with Some (fw, lr) => if fw <? s then s <=? lr else true | None => true end.

(** * Order of the stages: 2623-2626 for the sets, 9200-9268 for the order, 9309-9312 for the error. *)
Definition access (p : ostage) : OrderModel.stage :=
  {| OrderModel.read := oreads p; OrderModel.written_backward := with_op Back p; OrderModel.written_forward := with_op Fwd p |}.
Definition order (ps : list ostage) : option (list nat) := OrderModel.order_stages (map access ps).
(** Accepted by the compiler. *)
Definition oaccepted (ps : list ostage) : option (list nat) :=
  if checks ps [] [] && forallb (fun sp => forallb (odeclared ps (fst sp)) (oreads (snd sp) ++ oassigns (snd sp))) (combine (seq 0 (length ps)) ps)
  then order ps else None.

(** * writeStatelessPipeline, 9313-9374. *)
(** written_forward_at, a map: the last insertion is found. *)
Fixpoint forward_at (l : list (var * nat)) (x : var) : option nat :=
  match l with [] => None | (y, s) :: r => if Nat.eqb x y then Some s else forward_at r x end.
(** Dependencies of stage [s], 9318-9328. [before]: deps_before_pipeline; [deps]: depds_before_stage. *)
Definition stage_deps (before deps : list name) (fwd : list (var * nat)) (s : nat) : list name :=
  filter (fun a => match a with
                   | V x => match forward_at fwd x with Some s0 => if s <? s0 then nmem a before else true | None => true end
                   | T _ _ => true
                   end) deps.
(** trickle vars: start, 9353-9360. *)
Definition ocapture (ps : list ostage) (s : nat) (D : nstore) (x : var) : nstore :=
  match otrickle ps x with Some (fw, _) => if Nat.eqb s fw then nupd D (T x s) (D (V x)) else D | None => D end.
Record wst := { d_side : nstore; d_deps : list name; d_fwd : list (var * nat) }.
(** One stage, 9314-9374. The dependencies kept for the other stages: 9342-9350. *)
Definition stage_step (ps : list ostage) (vars : list var) (Q : nstore) (before : list name) (w : wst) (s : nat) : wst :=
  let p := nth s ps [] in
  let c := code (otr ps s) Q (erase p) (d_side w, stage_deps before (d_deps w) (d_fwd w) s) in
  let kept o := filter (fun x => nmem (V x) (snd c)) (with_op o p) in
  {| d_side := fold_left (ocapture ps s) vars (fst c);
     d_deps := map V (kept Back) ++ map V (kept Fwd) ++ d_deps w;
     d_fwd := map (fun x => (x, s)) (kept Fwd) ++ d_fwd w |}.
Definition write_ordered (ps : list ostage) (vars : list var) (Q : nstore) (before : list name) (l : list nat) (B : nstore) : wst :=
  fold_left (stage_step ps vars Q before) l {| d_side := B; d_deps := before; d_fwd := [] |}.

(** The clock edge, 7949-7968, as in PipeModel. *)
Definition oedge (ps : list ostage) (D : nstore) : nstore := fun a =>
  match a with
  | V x => D (V x)
  | T x s => match otrickle ps x with Some (fw, lr) => if (fw <? s) && (s <=? lr) then D (T x (s - 1)) else D (T x s) | None => D (T x s) end
  end.
Section Run.
  Variables (ps : list ostage) (l : list nat) (vars : list var) (w : always).
  (** The d side at the end of the pipeline in cycle [n]; the registers at the beginning of cycle [n]. *)
  Definition opipe (n : nat) (Q : nstore) : nstore := d_side (write_ordered ps vars Q (w_deps w) l (w_before w n Q)).
  Fixpoint oregs (n : nat) (Q : nstore) : nstore := match n with O => Q | S n' => oedge ps (w_after w n' (opipe n' (oregs n' Q))) end.
End Run.
