(** An algorithm calling another algorithm: call, wait, readback. Both modules run together, clocked by the same clock. *)
From Coq Require Import List Bool Arith ZArith.
Import ListNotations.
From Verif Require Import FsmModel FsmRun FsmBig RegModel.

(** * How an instance is connected to the algorithm calling it, src/Algorithm.cpp 10085-10240.
    [i_run]: the signal <inst>_run, register of the caller without flip-flop; [i_done]: the wire <inst>_done;
    [i_ins]: (input of the callee, register of the caller <inst>_<input>): not bound inputs of a callable algorithm are bound to the q side (10161-10165);
    [i_outs]: (wire of the caller <inst>_<output>, registered output of the callee), the output is the q side of the register (10010-10040). *)
Record inst := { i_run : var; i_done : var; i_ins : list (var * var); i_outs : list (var * var) }.

(** An update that does nothing when the value is the same; same values as [upd]. *)
Definition set1 (s : store) (x : var) (v : Z) : store := if Z.eqb (s x) v then s else upd s x v.
(** The ports: [dst a] takes the value [src b] for each (a, b). *)
Definition wire (l : list (var * var)) (src dst : store) : store := fold_left (fun d p => set1 d (fst p) (src (snd p))) l dst.

(** Values seen by the caller at the beginning of a cycle: the outputs of the callee, done (assign out_done = idx == 0, 10052-10066; no pipeline),
    and run maintained high (always block, 8223-8231). *)
Definition caller_in (w : inst) (k : mod_st) (s : store) : store :=
  set1 (set1 (wire (i_outs w) (m_q k) s) (i_done w) (if Nat.eqb (m_idx k) 0 then 1%Z else 0%Z)) (i_run w) 1%Z.
(** Values seen by the callee: its inputs. *)
Definition callee_in (w : inst) (c : mod_st) (s : store) : store := wire (i_ins w) (m_q c) s.

(** * Both modules. The call is "<inst>_run = 0" in the code of the caller, read by the callee in the same cycle. *)
Record sys := { y_c : mod_st; y_k : mod_st }.
Definition callee_alg : alg := {| a_fsm := true; a_auto := false |}.
Definition same (_ : nat) (s : store) : store := s.
Definition sys_step (w : inst) (ac : alg) (mc mk : fsm) (vc vk : var -> option upd_rhs) (reset crun : nat -> bool) (n : nat) (y : sys) : option sys :=
  do c <- mod_step ac mc vc (fun _ => caller_in w (y_k y)) same reset crun n (y_c y);
  do k <- mod_step callee_alg mk vk (fun _ => callee_in w (y_c y)) same reset (fun _ => truth (m_q c (i_run w))) n (y_k y);
  Some {| y_c := c; y_k := k |}.
Fixpoint sys_run (w : inst) (ac : alg) (mc mk : fsm) (vc vk : var -> option upd_rhs) (reset crun : nat -> bool) (n0 n : nat) (y : sys) : option sys :=
  match n with
  | O => Some y
  | S n' => do y' <- sys_run w ac mc mk vc vk reset crun n0 n' y; sys_step w ac mc mk vc vk reset crun (n0 + n') y'
  end.

(** * Calls in the source. writeAlgorithmCall, src/Algorithm.cpp 7119-7167: assigns the inputs, then run = 0; an asynchronous call (4106) is added to the
    current block. gatherSyncExec, 2785-2819: the same, followed by the join. gatherJoinExec, 2823-2850: [SJoin] of FsmModel. *)
Definition start_call (w : inst) (args : list (var * expr)) : list stmt :=
  map (fun a => SAssign (fst a) (snd a)) args ++ [ SAssign (i_run w) (EC 0) ].
Definition join_call (w : inst) (res : list (var * expr)) : stmt := SJoin (EV (i_done w)) res.
Definition sync_call (w : inst) (args res : list (var * expr)) : list stmt := start_call w args ++ [ join_call w res ].

(** * Programs with calls understood as procedure calls: nothing below refers to cycles, states or signals.
    State of the called algorithm: [Idle k]: not running, with registers [k]; [Busy k]: called, has yet to execute its program from the values [k]. *)
Inductive kst := Idle (k : store) | Busy (k : store).
(** Values at the beginning of a call: registers initialized, inputs given by the caller. *)
Definition starting (w : inst) (vk : var -> option upd_rhs) (k s : store) : store := wire (i_ins w) s (mod_edge vk false false k).
Definition assign_list (l : list (var * expr)) (s : store) : store := fold_left (fun s a => upd s (fst a) (eval s (snd a))) l s.
Definition read_results (w : inst) (res : list (var * expr)) (k s : store) : store := assign_list res (wire (i_outs w) k s).

Section Procedure.
  Variables (w : inst) (vk : var -> option upd_rhs) (pk : list stmt).
  Definition inputs_kept (x : var) (K : kst) : Prop := match K with Idle _ => True | Busy _ => ~ In x (map snd (i_ins w)) end.
  Inductive call1 : stmt -> store * kst -> outcome -> store * kst -> Prop :=
    (* the inputs are not modified while the algorithm runs *)
  | c_assign x e s K : x <> i_run w -> inputs_kept x K -> call1 (SAssign x e) (s, K) Normal (upd s x (eval s e), K)
  | c_call s k : call1 (SAssign (i_run w) (EC 0)) (s, Idle k) Normal (s, Busy (starting w vk k s))
  | c_join_idle res s k : call1 (join_call w res) (s, Idle k) Normal (read_results w res k s, Idle k)
    (* joining executes the program of the callee *)
  | c_join res s k0 k : exec false pk k0 Normal k -> call1 (join_call w res) (s, Busy k0) Normal (read_results w res k s, Idle k)
  | c_block l a o b : calls l a o b -> call1 (SBlock l) a o b
  | c_if e l s K o b : calls (if truth (eval s e) then l else []) (s, K) o b -> call1 (SIf e l) (s, K) o b
  | c_ifelse e l1 l2 s K o b : calls (if truth (eval s e) then l1 else l2) (s, K) o b -> call1 (SIfElse e l1 l2) (s, K) o b
  | c_switch e cs s K o b : calls (match pick (eval s e) cs with Some l => l | None => [] end) (s, K) o b -> call1 (SSwitch e cs) (s, K) o b
  | c_while_end e b s K : truth (eval s e) = false -> call1 (SWhile e b) (s, K) Normal (s, K)
  | c_while_next e b s K a1 a2 : truth (eval s e) = true -> calls b (s, K) Normal a1 -> call1 (SWhile e b) a1 Normal a2 -> call1 (SWhile e b) (s, K) Normal a2
  | c_while_break e b s K a1 : truth (eval s e) = true -> calls b (s, K) Broke a1 -> call1 (SWhile e b) (s, K) Normal a1
  | c_break a : call1 SBreak a Broke a
  | c_step a : call1 SStep a Normal a
  | c_label n a : call1 (SLabel n) a Normal a
  with calls : list stmt -> store * kst -> outcome -> store * kst -> Prop :=
  | c_nil a : calls [] a Normal a
  | c_cons x r a b o c : call1 x a Normal b -> calls r b o c -> calls (x :: r) a o c
  | c_broke x r a b : call1 x a Broke b -> calls (x :: r) a Broke b.
  Scheme call1_mut := Minimality for call1 Sort Prop with calls_mut := Minimality for calls Sort Prop.
  Combined Scheme calls_mutind from call1_mut, calls_mut.
End Procedure.

(** Programs of callers: signals of the instance are used by calls only; no goto, no return. *)
Definition signals (w : inst) : list var := i_run w :: i_done w :: map fst (i_outs w).
Definition off (w : inst) (l : list var) : bool := forallb (fun x => negb (memb x (signals w))) l.
Fixpoint every (P : stmt -> bool) (st : stmt) : bool :=
  P st && match st with
          | SBlock l | SIf _ l | SWhile _ l => forallb (every P) l
          | SIfElse _ l1 l2 => forallb (every P) l1 && forallb (every P) l2
          | SSwitch _ cs => forallb (fun c => forallb (every P) (snd c)) cs
          | _ => true
          end.
Definition caller_ok (w : inst) (st : stmt) : bool :=
  match st with
  | SAssign x e => (Nat.eqb x (i_run w) && match e with EC z => Z.eqb z 0 | _ => false end) || off w (x :: evars e)
  | SIf e _ | SIfElse e _ _ | SSwitch e _ | SWhile e _ => off w (evars e)
  | SJoin d res => match d with EV x => Nat.eqb x (i_done w) | _ => false end &&
                   forallb (fun r => off w [fst r] && negb (memb (i_run w) (evars (snd r))) && negb (memb (i_done w) (evars (snd r)))) res
  | SGoto _ | SReturn => false
  | _ => true
  end.
(** The callee does not assign its inputs; no goto, no return, no call. *)
Definition callee_ok (w : inst) (st : stmt) : bool :=
  match st with SAssign x _ => negb (memb x (map fst (i_ins w))) | SGoto _ | SReturn | SJoin _ _ => false | _ => true end.
Fixpoint distinct (l : list var) : bool := match l with [] => true | x :: r => negb (memb x r) && distinct r end.
(** The names are those of distinct variables. *)
Definition inst_ok (w : inst) : bool :=
  negb (Nat.eqb (i_run w) (i_done w)) && negb (memb (i_run w) (map fst (i_outs w))) && negb (memb (i_done w) (map fst (i_outs w))) &&
  distinct (map fst (i_ins w)) && off w (map snd (i_ins w)) && forallb (fun x => negb (memb x (map fst (i_ins w)))) (map snd (i_outs w)).
