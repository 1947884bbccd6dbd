(** Cycle-exact execution of the source text of an algorithm without goto: [FsmSource] where the end of a conditional ends the cycle exactly when [cut]
    says so. Nothing here refers to blocks, states or Verilog. *)
From Coq Require Import List Bool Arith ZArith Lia.
Import ListNotations.
From Verif Require Import FsmModel FsmLayout FsmSource FsmTimeStatic.

(** Steps within a cycle. *)
Inductive move : config * store -> config * store -> Prop :=
| m_assign x e r k s : move (Run (SAssign x e :: r) k, s) (Run r k, upd s x (eval s e))
| m_return r k s : move (Run (SReturn :: r) k, s) (Run r k, s)
| m_block l r k s : move (Run (SBlock l :: r) k, s) (Run l (KSeq false r k), s)
| m_if e l r k s : move (Run (SIf e l :: r) k, s) (Run (if truth (eval s e) then l else []) (KSeq (cut (SIf e l)) r k), s)
| m_ifelse e l1 l2 r k s : move (Run (SIfElse e l1 l2 :: r) k, s) (Run (if truth (eval s e) then l1 else l2) (KSeq (cut (SIfElse e l1 l2)) r k), s)
| m_switch e cs r k s : move (Run (SSwitch e cs :: r) k, s) (Run (match pick (eval s e) cs with Some l => l | None => [] end) (KSeq (cut (SSwitch e cs)) r k), s)
| m_while e b r k s : move (Run (SWhile e b :: r) k, s) (Jump (SWhile e b :: r) k, s)
| m_test e b r k s : move (Test e b r k, s) (if truth (eval s e) then Run b (KLoop e b r k) else if hasbrks b then Jump r k else Run r k, s)
| m_break r k r' k' s : brkk k = Some (r', k') -> move (Run (SBreak :: r) k, s) (Jump r' k', s)
| m_label n r k s : move (Run (SLabel n :: r) k, s) (Run r k, s)
| m_join d rb r k s : move (Run (SJoin d rb :: r) k, s) (Jump (SJoin d rb :: r) k, s)
| m_wait d rb r k s : move (Wait d rb r k, s) (if truth (eval s d) then Jump (assigns rb ++ r) k else Jump (SJoin d rb :: r) k, s)
| m_seq r k s : move (Run [] (KSeq false r k), s) (Run r k, s)
| m_after r k s : move (Run [] (KSeq true r k), s) (Jump r k, s)
| m_again e b r k s : move (Run [] (KLoop e b r k), s) (Jump (SWhile e b :: r) k, s)
  (* moves that take no time once the cycle is ended *)
| mj_block l r k s : move (Jump (SBlock l :: r) k, s) (Jump l (KSeq false r k), s)
| mj_break r k r' k' s : brkk k = Some (r', k') -> move (Jump (SBreak :: r) k, s) (Jump r' k', s)
| mj_label n r k s : move (Jump (SLabel n :: r) k, s) (Jump r k, s)
| mj_seq j r k s : move (Jump [] (KSeq j r k), s) (Jump r k, s)
| mj_again e b r k s : move (Jump [] (KLoop e b r k), s) (Jump (SWhile e b :: r) k, s).

Inductive moves : config * store -> config * store -> Prop :=
| mv_refl c : moves c c
| mv_step a b c : move a b -> moves b c -> moves a c.

Lemma moves_trans a b c : moves a b -> moves b c -> moves a c.
Proof. induction 1; auto. intros H2. eapply mv_step; eauto. Qed.
Lemma moves_one a b : move a b -> moves a b.
Proof. intros H. eapply mv_step; [exact H|apply mv_refl]. Qed.

(** At most one way to go on: either a step within the cycle, or the next cycle. *)
Lemma move_det a b c : move a b -> move a c -> b = c.
Proof. intros H1 H2. destruct H1; inversion H2; subst; try reflexivity; congruence. Qed.
Lemma tick_det a b c : tick a b -> tick a c -> b = c.
Proof. intros H1 H2. destruct H1; inversion H2; subst; try reflexivity; discriminate. Qed.
Lemma tick_move c c1 s b : tick c c1 -> move (c, s) b -> False.
Proof. intros H1 H2. destruct H1; inversion H2; subst; discriminate. Qed.

(** [n] cycles of the source: at the end of each, nothing more can be done in the cycle. *)
Section Timed.
  Variable env : nat -> store -> store.
  Inductive after : nat -> config * store -> config * store -> Prop :=
  | af_0 a : after 0 a a
  | af_S n a c s c1 b : after n a (c, s) -> tick c c1 -> moves (c1, env n s) b -> (exists c2, tick (fst b) c2) -> after (S n) a b.

  Lemma moves_det a b c : moves a b -> moves a c -> (exists b', tick (fst b) b') -> (exists c', tick (fst c) c') -> b = c.
  Proof.
    induction 1 as [a|a a1 b M1 H IH]; intros H2 [b' Tb] [c' Tc].
    - destruct H2 as [a|a a1 c M H2]; [reflexivity|]. destruct a as [a s]. destruct (tick_move _ _ _ _ Tb M).
    - destruct H2 as [a|a a2 c M H2]; [destruct a as [a s]; destruct (tick_move _ _ _ _ Tc M1)|]. rewrite (move_det _ _ _ M M1) in H2. apply IH; eauto.
  Qed.
  Theorem after_det n a b c : after n a b -> after n a c -> b = c.
  Proof.
    revert b c. induction n as [|n IH]; intros b c H1 H2; inversion H1; subst; inversion H2; subst; [reflexivity|].
    match goal with X : after n a (?x, ?y), Y : after n a (?z, ?t) |- _ => pose proof (IH _ _ X Y) as E; injection E as <- <- end.
    match goal with X : tick ?c0 ?x, Y : tick ?c0 ?z |- _ => pose proof (tick_det _ _ _ X Y); subst end.
    eapply moves_det; eassumption.
  Qed.
End Timed.

(** The next cycle starts without executing any instruction. *)
Inductive settles : list stmt -> kont -> Prop :=
| st_while e b r k : settles (SWhile e b :: r) k
| st_join d rb r k : settles (SJoin d rb :: r) k
| st_break r k r' k' : brkk k = Some (r', k') -> settles (SBreak :: r) k
| st_block l r k : settles l (KSeq false r k) -> settles (SBlock l :: r) k
| st_label n r k : settles r k -> settles (SLabel n :: r) k
| st_seq r k : settles r k -> settles [] (KSeq false r k)
| st_after r k : settles [] (KSeq true r k)
| st_again e b r k : settles [] (KLoop e b r k).

Lemma settle a b : moves a b -> forall l k s, a = (Run l k, s) -> settles l k -> (exists l' k', b = (Run l' k', s) /\ settles l' k') \/ moves (Jump l k, s) b.
Proof.
  induction 1 as [a|a a1 b M1 H IH]; intros l k s -> St; [left; eauto|].
  destruct St.
  - inversion M1; subst. now right.
  - inversion M1; subst. now right.
  - inversion M1; subst. right. eapply mv_step; [apply mj_break; eassumption|assumption].
  - inversion M1; subst. destruct (IH _ _ _ eq_refl St) as [X|X]; [now left|]. right. eapply mv_step; [apply mj_block|exact X].
  - inversion M1; subst. destruct (IH _ _ _ eq_refl St) as [X|X]; [now left|]. right. eapply mv_step; [apply mj_label|exact X].
  - inversion M1; subst. destruct (IH _ _ _ eq_refl St) as [X|X]; [now left|]. right. eapply mv_step; [apply mj_seq|exact X].
  - inversion M1; subst. right. eapply mv_step; [apply mj_seq|assumption].
  - inversion M1; subst. right. eapply mv_step; [apply mj_again|assumption].
Qed.
Lemma jump_jump a b : moves a b -> forall l k s, a = (Jump l k, s) -> exists l' k', b = (Jump l' k', s).
Proof. induction 1 as [a|a a1 b M1 H IH]; intros l k s ->; [eauto|]. inversion M1; subst; eauto. Qed.

(** Nothing is left to execute, but maybe the end of a cycle. *)
Inductive nothing : list stmt -> kont -> Prop :=
| no_stop : nothing [] KStop
| no_seq r k : nothing r k -> nothing [] (KSeq false r k).
Lemma nothing_moves l k : nothing l k -> forall s, moves (Run l k, s) (Run [] KStop, s).
Proof. induction 1; intros s; [apply mv_refl|]. eapply mv_step; [apply m_seq|apply IHnothing]. Qed.
Definition done (c : config) : Prop := c = Run [] KStop \/ exists l k, tick c (Run l k) /\ nothing l k.
Lemma settles_done l k : settles l k -> ~ done (Run l k).
Proof.
  intros St [H|[l1 [k1 [T _]]]]; [injection H as -> ->; inversion St|]. inversion T; subst; inversion St.
Qed.
