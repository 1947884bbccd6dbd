(** Instantiation of circuitries. *)
From Coq Require Import List Bool Arith ZArith.
Import ListNotations.
From Verif Require Import FsmModel.

(** Source instructions of the body of an algorithm or circuitry: antlr/silice.g4 368-390, 443-457. Identifiers are numbers. [CVar x (Some e)]:
    declaration with an expression initializer; [CVar x None]: declaration of an uninitialized variable.
    [CInst fi fo body ai ao]: instance [(ao) = c(ai)] of the circuitry [c] with inputs [fi], outputs [fo] (an inout is in both) and body [body]. *)
Inductive cst :=
| CAssign (x : nat) (e : expr)
| CVar (x : nat) (e : option expr)
| CBlock (l : list cst)
| CIf (e : expr) (l : list cst)
| CIfElse (e : expr) (l1 l2 : list cst)
| CWhile (e : expr) (l : list cst)
| CBreak
| CStep
| CInst (fi fo : list nat) (body : list cst) (ai : list expr) (ao : list nat).

(** [vio_rewrites] of the context of a block: src/Algorithm.h 540-550, most recent first. Identifiers and names of variables in the module are
    in the same space: a variable of the algorithm keeps its name (src/Algorithm.cpp 2436-2443). *)
Definition rules := list (nat * nat).

(** [translateVIOName], src/Algorithm.cpp 1394-1425, without subroutine and pipeline. *)
Definition tr (r : rules) (x : nat) : nat := match assoc x r with Some y => y | None => x end.

(** [rewriteExpression], src/Algorithm.cpp 1691-1770: each identifier is translated. *)
Fixpoint tre (r : rules) (e : expr) : expr :=
  match e with
  | EC n => EC n
  | EV x => EV (tr r x)
  | EU f a => EU f (tre r a)
  | EB f a b => EB f (tre r a) (tre r b)
  end.

(** Instructions of the current block, as they are stored: they are translated when the block is written (src/Algorithm.cpp 8474-8600), with
    the rules the block has in the end. *)
Definition seg := list (nat * expr).
Definition flush (r : rules) (g : seg) : list stmt := map (fun i => SAssign (tr r (fst i)) (tre r (snd i))) g.

(** [getIdentifiers] on inputs, src/Algorithm.cpp 2929-2963 with [getCallParams] 3718-3748, and the closure on previous rules, 3030-3038: the name is
    translated by [getCallParams], and once more by the closure. Returns the variables, and the temporaries with the expressions. *)
Fixpoint idents (r : rules) (n : nat) (ai : list expr) : list nat * seg * nat :=
  match ai with
  | [] => ([], [], n)
  | EV x :: a => let '(vs, ts, n') := idents r n a in (tr r (tr r x) :: vs, ts, n')
  | e :: a => let '(vs, ts, n') := idents r (S n) a in (n :: vs, (n, e) :: ts, n')
  end.

(** One instruction: [r] and [g] are the rules and the instructions of the current block, [n] is the first unused variable. Returns the instructions of the blocks closed,
    the rules and instructions of the new current block. *)
Fixpoint elab (st : cst) (r : rules) (n : nat) (g : seg) {struct st} : option (list stmt * rules * nat * seg) :=
  let elabs := (fix elabs (l : list cst) (r : rules) (n : nat) (g : seg) : option (list stmt * rules * nat * seg) :=
    match l with
    | [] => Some ([], r, n, g)
    | x :: l' =>
        do (o1, r1, n1, g1) <- elab x r n g;
        do (o2, r2, n2, g2) <- elabs l' r1 n1 g1;
        Some (o1 ++ o2, r2, n2, g2)
    end) in
  let ebody := fun l r n => do (o, r', n', g') <- elabs l r n []; Some (o ++ flush r' g', n') in
  match st with
  | CAssign x e => Some ([], r, n, g ++ [(x, e)])
  | CVar x None => Some ([], (x, n) :: r, S n, g)                            (* addVar, 551-556 *)
  | CVar x (Some e) => Some ([], (x, n) :: r, S n, g ++ [(n, e)])            (* gatherDeclarationVar, 706-717 *)
  | CBlock l => do (b, n') <- ebody l r n; Some (flush r g ++ [SBlock b], r, n', [])
  | CIf e l => do (b, n') <- ebody l r n; Some (flush r g ++ [SIf (tre r e) b], r, n', [])
  | CIfElse e l1 l2 =>
      do (b1, n1) <- ebody l1 r n;
      do (b2, n2) <- ebody l2 r n1;
      Some (flush r g ++ [SIfElse (tre r e) b1 b2], r, n2, [])
  | CWhile e l => do (b, n') <- ebody l r n; Some (flush r g ++ [SWhile (tre r e) b], r, n', [])
  | CBreak => Some (flush r g ++ [SBreak], r, n, [])
  | CStep => Some (flush r g ++ [SStep], r, n, [])
  | CInst fi fo body ai ao =>                                                (* gatherCircuitryInst, 2967-3093 *)
      let '(vi, ts, n1) := idents r n ai in
      let vo := map (fun x => tr r (tr r x)) ao in
      if negb (Nat.eqb (length fi) (length vi)) || negb (Nat.eqb (length fo) (length vo)) then None    (* 3019-3024 *)
      else
        let r' := rev (combine fo vo) ++ rev (combine fi vi) ++ r in         (* 3028-3050 *)
        let g' := rev ts ++ g in                                             (* addTemporary, 3247-3248: at the beginning of the block *)
        do (b, n2) <- ebody body r' n1;
        Some (flush r g' ++ [SBlock b], r, n2, [])
  end.

Definition elabs : list cst -> rules -> nat -> seg -> option (list stmt * rules * nat * seg) :=
  fix elabs (l : list cst) (r : rules) (n : nat) (g : seg) : option (list stmt * rules * nat * seg) :=
    match l with
    | [] => Some ([], r, n, g)
    | x :: l' =>
        do (o1, r1, n1, g1) <- elab x r n g;
        do (o2, r2, n2, g2) <- elabs l' r1 n1 g1;
        Some (o1 ++ o2, r2, n2, g2)
    end.
Definition ebody (l : list cst) (r : rules) (n : nat) : option (list stmt * nat) :=
  do (o, r', n', g') <- elabs l r n []; Some (o ++ flush r' g', n').

(** The body of an algorithm whose variables are all below [n]. *)
Definition elaborate (n : nat) (l : list cst) : option (list stmt) := do (p, _) <- ebody l [] n; Some p.

(** * What is expected: the circuitry is pasted, its inputs and outputs replaced, its variables renamed. *)
Definition env := nat -> nat.
Definition setv (rho : env) (x v : nat) : env := fun y => if Nat.eqb y x then v else rho y.
Fixpoint setl (rho : env) (xs vs : list nat) : env :=
  match xs, vs with
  | x :: xs', v :: vs' => setl (setv rho x v) xs' vs'
  | _, _ => rho
  end.
Fixpoint sube (rho : env) (e : expr) : expr :=
  match e with
  | EC n => EC n
  | EV x => EV (rho x)
  | EU f a => EU f (sube rho a)
  | EB f a b => EB f (sube rho a) (sube rho b)
  end.
(** The variables of the inputs, and the instructions computing the expressions. *)
Fixpoint inputs (rho : env) (n : nat) (ai : list expr) : list nat * list stmt * nat :=
  match ai with
  | [] => ([], [], n)
  | EV x :: a => let '(vs, ts, n') := inputs rho n a in (rho x :: vs, ts, n')
  | e :: a => let '(vs, ts, n') := inputs rho (S n) a in (n :: vs, SAssign n (sube rho e) :: ts, n')
  end.
Fixpoint paste (st : cst) (rho : env) (n : nat) {struct st} : list stmt * env * nat :=
  let pastes := (fix pastes (l : list cst) (rho : env) (n : nat) : list stmt * env * nat :=
    match l with
    | [] => ([], rho, n)
    | x :: l' =>
        let '(o1, rho1, n1) := paste x rho n in
        let '(o2, rho2, n2) := pastes l' rho1 n1 in
        (o1 ++ o2, rho2, n2)
    end) in
  let pbody := fun l rho n => let '(o, _, n') := pastes l rho n in (o, n') in
  match st with
  | CAssign x e => ([SAssign (rho x) (sube rho e)], rho, n)
  | CVar x None => ([], setv rho x n, S n)
  | CVar x (Some e) => ([SAssign n (sube (setv rho x n) e)], setv rho x n, S n)
  | CBlock l => let (b, n') := pbody l rho n in ([SBlock b], rho, n')
  | CIf e l => let (b, n') := pbody l rho n in ([SIf (sube rho e) b], rho, n')
  | CIfElse e l1 l2 =>
      let (b1, n1) := pbody l1 rho n in
      let (b2, n2) := pbody l2 rho n1 in
      ([SIfElse (sube rho e) b1 b2], rho, n2)
  | CWhile e l => let (b, n') := pbody l rho n in ([SWhile (sube rho e) b], rho, n')
  | CBreak => ([SBreak], rho, n)
  | CStep => ([SStep], rho, n)
  | CInst fi fo body ai ao =>
      let '(vi, ts, n1) := inputs rho n ai in
      let (b, n2) := pbody body (setl (setl rho fi vi) fo (map rho ao)) n1 in
      (ts ++ [SBlock b], rho, n2)
  end.
Definition pastes : list cst -> env -> nat -> list stmt * env * nat :=
  fix pastes (l : list cst) (rho : env) (n : nat) : list stmt * env * nat :=
    match l with
    | [] => ([], rho, n)
    | x :: l' =>
        let '(o1, rho1, n1) := paste x rho n in
        let '(o2, rho2, n2) := pastes l' rho1 n1 in
        (o1 ++ o2, rho2, n2)
    end.
Definition pbody (l : list cst) (rho : env) (n : nat) : list stmt * nat := let '(o, _, n') := pastes l rho n in (o, n').
Definition pasted (n : nat) (l : list cst) : list stmt := fst (pbody l (fun x => x) n).
