(** Execution of the source text of an algorithm, cycle by cycle. Nothing here refers to blocks, states or Verilog. *)
From Coq Require Import List Bool Arith ZArith Lia.
Import ListNotations.
From Verif Require Import FsmModel FsmLayout.

(** What remains to be done after the current list of instructions. [KSeq j r k]: the instructions [r], [j]: a conditional containing a cycle boundary
    is being left. [KLoop e b r k]: end of an iteration of [while(e){b}] followed by [r]. *)
Inductive kont := KStop | KSeq (j : bool) (r : list stmt) (k : kont) | KLoop (e : expr) (b r : list stmt) (k : kont).

(** [Jump l k]: the cycle ends, [l] starts on the next one. [Test]: about to evaluate the condition of a loop. [Wait]: about to test the done
    signal of an instance. *)
Inductive config :=
| Run (l : list stmt) (k : kont)
| Jump (l : list stmt) (k : kont)
| Test (e : expr) (b r : list stmt) (k : kont)
| Wait (d : expr) (rb : list (var * expr)) (r : list stmt) (k : kont).

(** Where [break] leads. *)
Fixpoint brkk (k : kont) : option (list stmt * kont) :=
  match k with
  | KStop => None
  | KSeq _ _ k => brkk k
  | KLoop _ _ r k => Some (r, k)
  end.

(** Where [goto n] leads. *)
Definition orelse {A} (a b : option A) : option A := match a with Some x => Some x | None => b end.
Fixpoint find1 (n : nat) (st : stmt) (r : list stmt) (k : kont) {struct st} : option (list stmt * kont) :=
  let find := (fix find (l : list stmt) (k : kont) : option (list stmt * kont) :=
    match l with
    | [] => None
    | x :: r => orelse (find1 n x r k) (find r k)
    end) in
  match st with
  | SLabel m => if Nat.eqb m n then Some (r, k) else None
  | SBlock l => find l (KSeq false r k)
  | SIf _ l => find l (KSeq (negb (timeless st)) r k)
  | SIfElse _ l1 l2 => orelse (find l1 (KSeq (negb (timeless st)) r k)) (find l2 (KSeq (negb (timeless st)) r k))
  | SSwitch _ cs =>
      (fix cases (cs : list (option Z * list stmt)) : option (list stmt * kont) :=
        match cs with
        | [] => None
        | (_, l) :: cs' => orelse (find l (KSeq (negb (timeless st)) r k)) (cases cs')
        end) cs
  | SWhile e l => find l (KLoop e l r k)
  | _ => None
  end.
Fixpoint find (n : nat) (l : list stmt) (k : kont) : option (list stmt * kont) :=
  match l with
  | [] => None
  | x :: r => orelse (find1 n x r k) (find n r k)
  end.

Definition assigns (rb : list (var * expr)) : list stmt := map (fun r => SAssign (fst r) (snd r)) rb.

Section Source.
  Variable prog : list stmt.

  (** Steps within a cycle. *)
  Inductive silent : config * store -> config * store -> Prop :=
  | s_assign x e r k s : silent (Run (SAssign x e :: r) k, s) (Run r k, upd s x (eval s e))
    (* in an algorithm [return] does nothing: see C04 *)
  | s_return r k s : silent (Run (SReturn :: r) k, s) (Run r k, s)
  | s_block l r k s : silent (Run (SBlock l :: r) k, s) (Run l (KSeq false r k), s)
  | s_if e l r k s : silent (Run (SIf e l :: r) k, s) (Run (if truth (eval s e) then l else []) (KSeq (negb (timeless (SIf e l))) r k), s)
  | s_ifelse e l1 l2 r k s :
      silent (Run (SIfElse e l1 l2 :: r) k, s) (Run (if truth (eval s e) then l1 else l2) (KSeq (negb (timeless (SIfElse e l1 l2))) r k), s)
  | s_switch e cs r k s :
      silent (Run (SSwitch e cs :: r) k, s)
             (Run (match pick (eval s e) cs with Some l => l | None => [] end) (KSeq (negb (timeless (SSwitch e cs))) r k), s)
  | s_while e b r k s : silent (Run (SWhile e b :: r) k, s) (Jump (SWhile e b :: r) k, s)
  | s_test e b r k s :
      silent (Test e b r k, s) (if truth (eval s e) then Run b (KLoop e b r k) else if hasbrks b then Jump r k else Run r k, s)
  | s_break r k r' k' s : brkk k = Some (r', k') -> silent (Run (SBreak :: r) k, s) (Jump r' k', s)
  | s_label n r k s : silent (Run (SLabel n :: r) k, s) (if memb n (gotoss prog) then Jump r k else Run r k, s)
  | s_goto n r k r' k' s : find n prog KStop = Some (r', k') -> silent (Run (SGoto n :: r) k, s) (Jump r' k', s)
  | s_join d rb r k s : silent (Run (SJoin d rb :: r) k, s) (Jump (SJoin d rb :: r) k, s)
  | s_wait d rb r k s : silent (Wait d rb r k, s) (if truth (eval s d) then Jump (assigns rb ++ r) k else Jump (SJoin d rb :: r) k, s)
  | s_seq j r k s : silent (Run [] (KSeq j r k), s) (Run r k, s)
  | s_after r k s : silent (Run [] (KSeq true r k), s) (Jump r k, s)
  | s_again e b r k s : silent (Run [] (KLoop e b r k), s) (Jump (SWhile e b :: r) k, s)
    (* moves that take no time once the cycle is ended *)
  | j_block l r k s : silent (Jump (SBlock l :: r) k, s) (Jump l (KSeq false r k), s)
  | j_break r k r' k' s : brkk k = Some (r', k') -> silent (Jump (SBreak :: r) k, s) (Jump r' k', s)
  | j_label n r k s : silent (Jump (SLabel n :: r) k, s) (Jump r k, s)
  | j_goto n r k r' k' s : find n prog KStop = Some (r', k') -> silent (Jump (SGoto n :: r) k, s) (Jump r' k', s)
  | j_seq j r k s : silent (Jump [] (KSeq j r k), s) (Jump r k, s)
  | j_again e b r k s : silent (Jump [] (KLoop e b r k), s) (Jump (SWhile e b :: r) k, s).

  Inductive silents : config * store -> config * store -> Prop :=
  | ss_refl c : silents c c
  | ss_step a b c : silent a b -> silents b c -> silents a c.

  Lemma silents_trans a b c : silents a b -> silents b c -> silents a c.
  Proof. induction 1; auto. intros H2. eapply ss_step; eauto. Qed.
  Lemma silents_one a b : silent a b -> silents a b.
  Proof. intros H. eapply ss_step; [exact H|apply ss_refl]. Qed.

  (** Passing to the next cycle. *)
  Definition starts (l : list stmt) (k : kont) : bool :=
    match l, k with
    | SAssign _ _ :: _, _ | SIf _ _ :: _, _ | SIfElse _ _ _ :: _, _ | SSwitch _ _ :: _, _ | SStep :: _, _ | SReturn :: _, _ => true
    | [], KStop => true
    | _, _ => false
    end.
  Inductive tick : config -> config -> Prop :=
  | t_jump l k : starts l k = true -> tick (Jump l k) (Run l k)
  | t_while e b r k : tick (Jump (SWhile e b :: r) k) (Test e b r k)
  | t_wait d rb r k : tick (Jump (SJoin d rb :: r) k) (Wait d rb r k)
  | t_step r k : tick (Run (SStep :: r) k) (Run r k)
  | t_stop : tick (Run [] KStop) (Run [] KStop).

  (** Executions over [n] cycles; [tr t s]: values of the variables at the beginning of cycle [t] given those at the end of the previous one
      (inputs, always_before block). A started algorithm does as if it had just met [++:]. *)
  Variable env : nat -> store -> store.
  Inductive reach : nat -> config * store -> config * store -> Prop :=
  | re_0 a b : silents a b -> reach 0 a b
  | re_S n a c s c1 b : reach n a (c, s) -> tick c c1 -> silents (c1, env n s) b -> reach (S n) a b.

  (** Nothing is left to execute, but maybe the end of a cycle. *)
  Definition over (c : config) : Prop := exists c1, (c1 = c \/ tick c c1) /\ forall s, silents (c1, s) (Run [] KStop, s).
End Source.
