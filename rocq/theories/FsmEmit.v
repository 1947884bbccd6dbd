(** The code written for a state does what following the blocks of the graph does. *)
From Coq Require Import List Bool Arith ZArith Lia.
Import ListNotations.
From Verif Require Import FsmModel.

(** * Following the graph during a cycle *)
Fixpoint exec_ins (l : list instr) (s : store * nat) : store * nat :=
  match l with
  | [] => s
  | IAssign x e :: r => exec_ins r (upd (fst s) x (eval (fst s) e), snd s)
  | IReturn :: r => exec_ins r (fst s, 0)
  end.

Definition save_to (Q : store) (c : var) (sv : option var) (s : store) : store :=
  match sv with Some v => upd s v (Q c) | None => s end.

(** Return from a subroutine: with a single caller there is no test on the caller id. *)
Definition pick_ret (v : Z) (rets : list (Z * nat * option var)) : option (nat * option var) :=
  match rets with
  | [(_, b, sv)] => Some (b, sv)
  | _ => pick_case v (map (fun r => (Some (fst (fst r)), (snd (fst r), snd r))) rets)
  end.

(** [walk b s s']: starting a cycle in block [b] the registers and the index go from [s] to [s']. Blocks are followed until a state is reached;
    [J x i]: jumping to the state [x] selects index [i]. Expressions read the current values ; [Q] are the values at the start of the cycle,
    used by calls and waits. *)
Section Walk.
  Variable g : graph.
  Variable J : nat -> nat -> Prop.
  Variable Q : store.

  Inductive walk : nat -> store * nat -> store * nat -> Prop :=
  | w_none b s : b_end (g b) = ENone -> walk b s (fst (exec_ins (b_ins (g b)) s), 0)
  | w_next b x s s' : b_end (g b) = ENext (Some x) -> go x (exec_ins (b_ins (g b)) s) s' -> walk b s s'
  | w_if b e ib fi it eb fe et af s s' : b_end (g b) = EIf e ib fi it eb fe et af ->
      go (if truth (eval (fst (exec_ins (b_ins (g b)) s)) e) then ib else eb) (exec_ins (b_ins (g b)) s) s' -> walk b s s'
  | w_switch b e cs af s s' : b_end (g b) = ESwitch e cs af ->
      go (match pick (eval (fst (exec_ins (b_ins (g b)) s)) e) cs with Some x => x | None => af end)
         (exec_ins (b_ins (g b)) s) s' -> walk b s s'
  | w_while b e it af s s' : b_end (g b) = EWhile e it af ->
      go (if truth (eval (fst (exec_ins (b_ins (g b)) s)) e) then it else af) (exec_ins (b_ins (g b)) s) s' -> walk b s s'
  | w_wait b e w n s i : b_end (g b) = EWait e w n -> J (if truth (eval Q e) then n else w) i ->
      walk b s (fst (exec_ins (b_ins (g b)) s), i)
  | w_call b c sv cid x rt s i : b_end (g b) = ECall c sv cid x rt -> J x i ->
      walk b s (upd (save_to Q c sv (fst (exec_ins (b_ins (g b)) s))) c cid, i)
  | w_ret b c rets x sv s i : b_end (g b) = ERet c rets -> pick_ret (Q c) rets = Some (x, sv) -> J x i ->
      walk b s (match sv with Some v => upd (fst (exec_ins (b_ins (g b)) s)) c (Q v) | None => fst (exec_ins (b_ins (g b)) s) end, i)
  | w_ret_none b c rets s : b_end (g b) = ERet c rets -> pick_ret (Q c) rets = None ->
      walk b s (fst (exec_ins (b_ins (g b)) s), 0)
  with go : nat -> store * nat -> store * nat -> Prop :=
  | go_state x s i : b_state (g x) = true -> J x i -> go x s (fst s, i)
  | go_block x s s' : b_state (g x) = false -> walk x s s' -> go x s s'.
End Walk.

(** * Executions stopping at a block *)
Inductive res := Fin (s : store * nat) | Reach (s : store * nat).

Section Run.
  Variable g : graph.
  Variable J : nat -> nat -> Prop.
  Variable Q : store.

  Section Stop.
    Variable stop : option nat.

    Inductive run : nat -> store * nat -> res -> Prop :=
    | r_none b s : b_end (g b) = ENone -> run b s (Fin (fst (exec_ins (b_ins (g b)) s), 0))
    | r_next b x s r : b_end (g b) = ENext (Some x) -> rgo x (exec_ins (b_ins (g b)) s) r -> run b s r
    | r_if b e ib fi it eb fe et af s r : b_end (g b) = EIf e ib fi it eb fe et af ->
        rgo (if truth (eval (fst (exec_ins (b_ins (g b)) s)) e) then ib else eb) (exec_ins (b_ins (g b)) s) r -> run b s r
    | r_switch b e cs af s r : b_end (g b) = ESwitch e cs af ->
        rgo (match pick (eval (fst (exec_ins (b_ins (g b)) s)) e) cs with Some x => x | None => af end)
           (exec_ins (b_ins (g b)) s) r -> run b s r
    | r_while b e it af s r : b_end (g b) = EWhile e it af ->
        rgo (if truth (eval (fst (exec_ins (b_ins (g b)) s)) e) then it else af) (exec_ins (b_ins (g b)) s) r -> run b s r
    | r_wait b e w n s i : b_end (g b) = EWait e w n -> J (if truth (eval Q e) then n else w) i ->
        run b s (Fin (fst (exec_ins (b_ins (g b)) s), i))
    | r_call b c sv cid x rt s i : b_end (g b) = ECall c sv cid x rt -> J x i ->
        run b s (Fin (upd (save_to Q c sv (fst (exec_ins (b_ins (g b)) s))) c cid, i))
    | r_ret b c rets x sv s i : b_end (g b) = ERet c rets -> pick_ret (Q c) rets = Some (x, sv) -> J x i ->
        run b s (Fin (match sv with Some v => upd (fst (exec_ins (b_ins (g b)) s)) c (Q v) | None => fst (exec_ins (b_ins (g b)) s) end, i))
    | r_ret_none b c rets s : b_end (g b) = ERet c rets -> pick_ret (Q c) rets = None ->
        run b s (Fin (fst (exec_ins (b_ins (g b)) s), 0))
    with rgo : nat -> store * nat -> res -> Prop :=
    | rgo_state x s i : b_state (g x) = true -> J x i -> rgo x s (Fin (fst s, i))
    | rgo_stop x s : b_state (g x) = false -> stop = Some x -> rgo x s (Reach s)
    | rgo_block x s r : b_state (g x) = false -> stop <> Some x -> run x s r -> rgo x s r.

    Scheme run_mut := Induction for run Sort Prop with rgo_mut := Induction for rgo Sort Prop.
  End Stop.

  Lemma run_none_walk : forall b s r, run None b s r -> exists s', r = Fin s' /\ walk g J Q b s s'.
  Proof.
    apply (run_mut None (fun b s r _ => exists s', r = Fin s' /\ walk g J Q b s s')
                        (fun b s r _ => exists s', r = Fin s' /\ go g J Q b s s')).
    - intros b s H. eexists. split; [reflexivity|]. now apply w_none.
    - intros b x s r H _ [s' [E W]]. exists s'. split; [exact E|]. eapply w_next; eassumption.
    - intros. destruct H as [s' [E W]]. exists s'. split; [exact E|]. eapply w_if; eassumption.
    - intros. destruct H as [s' [E W]]. exists s'. split; [exact E|]. eapply w_switch; eassumption.
    - intros. destruct H as [s' [E W]]. exists s'. split; [exact E|]. eapply w_while; eassumption.
    - intros. eexists. split; [reflexivity|]. eapply w_wait; eassumption.
    - intros. eexists. split; [reflexivity|]. eapply w_call; eassumption.
    - intros. eexists. split; [reflexivity|]. eapply w_ret; eassumption.
    - intros. eexists. split; [reflexivity|]. eapply w_ret_none; eassumption.
    - intros. eexists. split; [reflexivity|]. now apply go_state.
    - intros. discriminate.
    - intros. destruct H as [s' [E W]]. exists s'. split; [exact E|]. now apply go_block.
  Qed.

  (** Successors in the cycle. *)
  Definition succs (b : nat) : list nat :=
    match b_end (g b) with
    | ENext (Some x) => [x]
    | EIf _ ib _ _ eb _ _ _ => [ib; eb]
    | ESwitch _ cs af => af :: map snd cs
    | EWhile _ it af => [it; af]
    | _ => []
    end.

  Lemma pick_case_in {A} v (cs : list (option Z * A)) x : pick_case v cs = Some x -> In x (map snd cs).
  Proof.
    induction cs as [|[[z|] a] cs IH]; cbn; [discriminate| |].
    - destruct (z =? v)%Z; [intros [= ->]; now left|intros H; right; auto].
    - intros H; right; auto.
  Qed.
  Lemma pick_default_in {A} (cs : list (option Z * A)) x : pick_default cs = Some x -> In x (map snd cs).
  Proof.
    induction cs as [|[[z|] a] cs IH]; cbn; [discriminate| |].
    - intros H; right; auto.
    - intros [= ->]; now left.
  Qed.
  Lemma pick_in {A} v (cs : list (option Z * A)) x : pick v cs = Some x -> In x (map snd cs).
  Proof.
    unfold pick. destruct (pick_case v cs) eqn:E; [intros [= <-]; eapply pick_case_in; eassumption|apply pick_default_in].
  Qed.

  (** Moving from one stop to another inside of a region. *)
  Section Region.
    Variable P : nat -> Prop.
    Variable a : nat.
    Hypothesis closed : forall x y, P x -> In y (succs x) -> b_state (g y) = false -> P y \/ y = a.
    Variable stop : option nat.
    Hypothesis not_stop : forall x, P x -> stop <> Some x.
    Hypothesis a_out : ~ P a.

    Lemma run_lift : forall b s r, run (Some a) b s r -> P b ->
      match r with Fin s' => run stop b s (Fin s') | Reach s' => forall r', rgo stop a s' r' -> run stop b s r' end.
    Proof.
      assert (HP : forall b y, P b -> In y (succs b) -> b_state (g y) = true \/ (b_state (g y) = false /\ (P y \/ y = a))).
      { intros b y H1 H2. destruct (b_state (g y)) eqn:E; [now left|right; split; [reflexivity|eauto]]. }
      apply (run_mut (Some a)
        (fun b s r _ => P b -> match r with Fin s' => run stop b s (Fin s') | Reach s' => forall r', rgo stop a s' r' -> run stop b s r' end)
        (fun b s r _ => (b_state (g b) = false -> P b \/ b = a) ->
           match r with Fin s' => rgo stop b s (Fin s') | Reach s' => forall r', rgo stop a s' r' -> rgo stop b s r' end)).
      - intros. now apply r_none.
      - intros b x s r E _ IH Pb.
        assert (In x (succs b)) as I by (unfold succs; rewrite E; now left).
        specialize (IH (fun F => closed b x Pb I F)).
        destruct r; [eapply r_next; eassumption|intros; eapply r_next; eauto].
      - intros b e ib fi it eb fe et af s r E _ IH Pb.
        assert (In (if truth (eval (fst (exec_ins (b_ins (g b)) s)) e) then ib else eb) (succs b)) as I.
        { unfold succs; rewrite E. destruct (truth _); [now left|right; now left]. }
        specialize (IH (fun F => closed b _ Pb I F)).
        destruct r; [eapply r_if; eassumption|intros; eapply r_if; eauto].
      - intros b e cs af s r E _ IH Pb.
        assert (In (match pick (eval (fst (exec_ins (b_ins (g b)) s)) e) cs with Some x => x | None => af end) (succs b)) as I.
        { unfold succs; rewrite E. destruct (pick _ _) eqn:Ep; [right; eapply pick_in; eassumption|now left]. }
        specialize (IH (fun F => closed b _ Pb I F)).
        destruct r; [eapply r_switch; eassumption|intros; eapply r_switch; eauto].
      - intros b e it af s r E _ IH Pb.
        assert (In (if truth (eval (fst (exec_ins (b_ins (g b)) s)) e) then it else af) (succs b)) as I.
        { unfold succs; rewrite E. destruct (truth _); [now left|right; now left]. }
        specialize (IH (fun F => closed b _ Pb I F)).
        destruct r; [eapply r_while; eassumption|intros; eapply r_while; eauto].
      - intros. eapply r_wait; eassumption.
      - intros. eapply r_call; eassumption.
      - intros. eapply r_ret; eassumption.
      - intros. eapply r_ret_none; eassumption.
      - intros. now apply rgo_state.
      - intros x s F [= ->] _ r' H. exact H.
      - intros x s r F N _ IH H. destruct (H F) as [Px| ->]; [|congruence].
        specialize (IH Px). destruct r.
        + apply rgo_block; auto.
        + intros r' H'. apply rgo_block; auto.
    Qed.
  End Region.

  (** A state used as a stop is never reached inside the cycle. *)
  Lemma run_state_fin a : b_state (g a) = true -> forall b s r, run (Some a) b s r -> exists s', r = Fin s'.
  Proof.
    intros Ha. apply (run_mut (Some a) (fun b s r _ => exists s', r = Fin s') (fun b s r _ => exists s', r = Fin s')); intros; eauto.
    congruence.
  Qed.
End Run.

(** * The code written *)
Definition agree (Q D : store) (deps : list var) : Prop := forall x, ~ In x deps -> D x = Q x.

Lemma memb_In x l : memb x l = true <-> In x l.
Proof.
  unfold memb. rewrite existsb_exists. split.
  - intros [y [H E]]. apply Nat.eqb_eq in E. now subst.
  - intros H. exists x. split; [exact H|apply Nat.eqb_refl].
Qed.
Lemma memb_notIn x l : memb x l = false <-> ~ In x l.
Proof. rewrite <- memb_In. destruct (memb x l); split; congruence. Qed.

Lemma veval_rewrite Q D deps e : agree Q D deps -> veval Q D (rewrite deps e) = eval D e.
Proof.
  intros A. induction e as [n|x|f a IHa|f a IHa b IHb]; cbn; try congruence.
  destruct (memb x deps) eqn:E; cbn; [reflexivity|]. symmetry. apply A. now apply memb_notIn.
Qed.

Lemma veval_Q Q D e : veval Q D (rewrite [] e) = eval Q e.
Proof. induction e; cbn; congruence. Qed.

Lemma vexecs_app Q a b s : vexecs Q (a ++ b) s = vexecs Q b (vexecs Q a s).
Proof. revert s. induction a as [|c a IH]; intros s; cbn; [reflexivity|apply IH]. Qed.

Lemma agree_mono Q D d d' : agree Q D d -> incl d d' -> agree Q D d'.
Proof. intros A I x H. apply A. intros F. apply H. now apply I. Qed.

Lemma write_ins_ok Q l : forall deps c d D p, write_ins l deps = (c, d) -> agree Q D deps ->
  incl deps d /\ vexecs Q c (D, p) = exec_ins l (D, p) /\ agree Q (fst (exec_ins l (D, p))) d.
Proof.
  induction l as [|[x e|] l IH]; intros deps c d D p E A; cbn in *.
  - injection E as <- <-. cbn. split; [apply incl_refl|split; [reflexivity|exact A]].
  - destruct (write_ins l (x :: deps)) as [c' d'] eqn:W. injection E as <- <-. cbn.
    rewrite (veval_rewrite Q D deps e A).
    destruct (IH (x :: deps) c' d' (upd D x (eval D e)) p W) as [I [V G]].
    + intros y H. unfold upd. destruct (Nat.eqb_spec y x); [subst; exfalso; apply H; now left|].
      apply A. intros F. apply H. now right.
    + split; [intros y H; apply I; now right|]. split; [exact V|exact G].
  - destruct (write_ins l deps) as [c' d'] eqn:W. injection E as <- <-. cbn.
    exact (IH deps c' d' D 0 W A).
Qed.

(** The execution of a case statement selects a branch. *)
Lemma run_fix_vexecs Q l s :
  (fix run (l : list vst) (s : store * nat) : store * nat := match l with [] => s | x :: r => run r (vexec Q x s) end) l s = vexecs Q l s.
Proof. revert s. induction l as [|x l IH]; intros s; cbn; [reflexivity|apply IH]. Qed.

Lemma vexec_if Q e a b s : vexec Q (VIf e a b) s = if truth (veval Q (fst s) e) then vexecs Q a s else vexecs Q b s.
Proof. cbn. rewrite !run_fix_vexecs. reflexivity. Qed.

Lemma vexec_case Q e cs s :
  vexec Q (VCase e cs) s = match pick (veval Q (fst s) e) cs with Some l => vexecs Q l s | None => s end.
Proof.
  unfold pick. cbn.
  set (v := veval Q (fst s) e).
  match goal with |- match ?F cs with _ => _ end = _ => assert (HF : forall cs, F cs = option_map (fun l => vexecs Q l s) (pick_case v cs)) end.
  { induction cs0 as [|[[z|] a] r IH]; cbn; [reflexivity| |exact IH].
    destruct (z =? v)%Z; cbn; [now rewrite run_fix_vexecs|exact IH]. }
  rewrite HF. destruct (pick_case v cs); cbn; [reflexivity|].
  match goal with |- match ?F cs with _ => _ end = _ => assert (HD : forall cs, F cs = option_map (fun l => vexecs Q l s) (pick_default cs)) end.
  { induction cs0 as [|[[z|] a] r IH]; cbn; [reflexivity|exact IH|]. now rewrite run_fix_vexecs. }
  rewrite HD. destruct (pick_default cs); reflexivity.
Qed.

(** * Well formed graphs *)
Definition after_of (e : endact) : option nat :=
  match e with EIf _ _ _ _ _ _ _ a => Some a | ESwitch _ _ a => Some a | EWhile _ _ a => Some a | _ => None end.

(** Blocks starting the branches. *)
Definition branches (e : endact) : list nat :=
  match e with EIf _ i _ _ l _ _ _ => [i; l] | ESwitch _ cs _ => map snd cs | EWhile _ i _ => [i] | _ => [] end.

Section Sound.
  Variable g : graph.
  Variable r : rst.
  Variable J : nat -> nat -> Prop.
  Variable ffi : nat -> option nat.
  Hypothesis ffi_J : forall x i, ffi x = Some i -> J x i.

  Variable Vis : nat -> Prop.
  Hypothesis vis_child : forall b c, Vis b -> In (Some c) (children (b_end (g b))) -> b_state (g c) = false -> Vis c.

  (** Region of the branches of a conditional. *)
  Variable Reg : nat -> nat -> Prop.
  Hypothesis reg_start : forall b x, In x (branches (b_end (g b))) -> Reg b x.
  Hypothesis reg_after : forall b a, after_of (b_end (g b)) = Some a -> ~ Reg b a.
  Hypothesis reg_closed : forall b a x y, after_of (b_end (g b)) = Some a -> Reg b x -> In y (succs g x) -> b_state (g y) = false ->
    Reg b y \/ y = a.
  Hypothesis reg_nested : forall b a x a', after_of (b_end (g b)) = Some a -> Reg b x -> after_of (b_end (g x)) = Some a' ->
    (b_state (g a') = false -> Reg b a') /\ (forall y, Reg x y -> Reg b y).

  (** The branches either always reach the block after the conditional, or never. *)
  Definition always_reach (a x : nat) : Prop := forall Q s q, run g J Q (Some a) x s q -> exists s', q = Reach s'.
  Definition never_reach (a x : nat) : Prop := forall Q s q, run g J Q (Some a) x s q -> exists s', q = Fin s'.

  Definition join_ok (b : nat) : Prop :=
    match b_end (g b) with
    | EIf e ib fi it eb fe et af =>
        b_state (g ib) = false /\ b_state (g eb) = false /\ (b_state (g af) = false ->
          (dead r it = false -> always_reach af ib) /\ (dead r et = false -> always_reach af eb) /\
          (dead r it = true -> never_reach af ib) /\ (dead r et = true -> never_reach af eb) /\ ~ (dead r it = true /\ dead r et = true))
    | ESwitch e cs af =>
        (forall x, In x (map snd cs) -> b_state (g x) = false) /\
        (if b_state (g af) then forall v, pick v cs <> None else forall x, In x (map snd cs) -> always_reach af x)
    | EWhile e it af => b_state (g it) = false /\ (b_state (g af) = false -> never_reach af it)
    | _ => True
    end.
  Hypothesis join : forall b, Vis b -> join_ok b.

  Definition inreg (stop : option nat) (b : nat) : Prop :=
    match stop with None => True | Some a => exists c, after_of (b_end (g c)) = Some a /\ Reg c b end.

  Lemma inreg_not_stop stop x : inreg stop x -> stop <> Some x.
  Proof. destruct stop as [a|]; [|discriminate]. intros [c [E R]] [= ->]. exact (reg_after _ _ E R). Qed.

  Lemma inreg_succ stop x y : inreg stop x -> In y (succs g x) -> b_state (g y) = false -> stop <> Some y -> inreg stop y.
  Proof.
    destruct stop as [a|]; [|reflexivity]. intros [c [E R]] I F N. exists c. split; [exact E|].
    destruct (reg_closed c a x y E R I F); [assumption|congruence].
  Qed.

  Lemma inreg_region stop x a : inreg stop x -> after_of (b_end (g x)) = Some a -> forall y, Reg x y -> stop <> Some y.
  Proof.
    intros I E y H. destruct stop as [s|]; [|discriminate]. destruct I as [c [Ec Rc]].
    intros [= ->]. destruct (reg_nested c y x a Ec Rc E) as [_ N]. exact (reg_after c y Ec (N y H)).
  Qed.

  Lemma inreg_after stop x a : inreg stop x -> after_of (b_end (g x)) = Some a -> b_state (g a) = false -> inreg stop a.
  Proof.
    destruct stop as [s|]; [|reflexivity]. intros [c [Ec Rc]] E F. exists c. split; [exact Ec|].
    destruct (reg_nested c s x a Ec Rc E) as [N _]. exact (N F).
  Qed.

  (** Lifting the execution of a branch. *)
  Lemma branch_lift Q stop b a x s q : after_of (b_end (g b)) = Some a -> inreg stop b -> Reg b x ->
    run g J Q (Some a) x s q ->
    match q with Fin s' => run g J Q stop x s (Fin s') | Reach s' => forall q', rgo g J Q stop a s' q' -> run g J Q stop x s q' end.
  Proof.
    intros E I R H. eapply (run_lift g J Q (Reg b) a); [| | |exact H|exact R].
    - intros y z Ry Iz F. exact (reg_closed b a y z E Ry Iz F).
    - exact (inreg_region stop b a I E).
    - exact (reg_after b a E).
  Qed.

  Lemma region_not_stop stop b x a : inreg stop b -> after_of (b_end (g b)) = Some a -> In x (branches (b_end (g b))) -> stop <> Some x.
  Proof. intros I E H. apply (inreg_region stop b a I E). now apply reg_start. Qed.

  Definition outcome (Q : store) (D' : store * nat) (d : list var) (q : res) : Prop :=
    q = Fin D' \/ (q = Reach D' /\ agree Q (fst D') d).

  Lemma outcome_fin Q D' d : outcome Q D' d (Fin D').
  Proof. now left. Qed.

  Definition emit_ok (f : nat) : Prop :=
    forall entry stop b deps c d q, emit g r ffi f entry stop b deps = Some (c, d, q) ->
    Vis b -> inreg stop b -> b_state (g b) = false \/ stop = None -> incl deps d /\
    forall Q D p, agree Q D deps -> exists o, run g J Q stop b (D, p) o /\ outcome Q (vexecs Q c (D, p)) d o.

  Lemma goto_ok x deps c d q : goto_state ffi x deps = Some (c, d, q) -> d = deps /\ q = [x] /\
    exists i, J x i /\ (forall Q D p, vexecs Q c (D, p) = (D, i)).
  Proof.
    unfold goto_state, obind. destruct (ffi x) as [i|] eqn:E; [|discriminate]. intros [= <- <- <-].
    split; [reflexivity|split; [reflexivity|]]. exists i. split; [now apply ffi_J|reflexivity].
  Qed.

  (** Following a block after the current one. *)
  Definition follow (f : nat) (stop : option nat) (x : nat) (d : list var) : option (list vst * list var * list nat) :=
    if b_state (g x) then goto_state ffi x d
    else if match stop with Some t => Nat.eqb x t | None => false end then Some ([], d, [])
    else emit g r ffi f false stop x d.

  Lemma follow_ok f : emit_ok f -> forall stop x deps c d q, follow f stop x deps = Some (c, d, q) ->
    (b_state (g x) = false -> Vis x) -> (b_state (g x) = false -> stop <> Some x -> inreg stop x) -> incl deps d /\
    forall Q D p, agree Q D deps -> exists o, rgo g J Q stop x (D, p) o /\ outcome Q (vexecs Q c (D, p)) d o.
  Proof.
    intros IH stop x deps c d q H V R. unfold follow in H. destruct (b_state (g x)) eqn:S.
    - destruct (goto_ok _ _ _ _ _ H) as [-> [_ [i [Ji Ei]]]]. split; [apply incl_refl|].
      intros Q D p A. exists (Fin (D, i)). split; [exact (rgo_state g J Q stop x (D, p) i S Ji)|].
      left. now rewrite Ei.
    - destruct (match stop with Some t => Nat.eqb x t | None => false end) eqn:T.
      + injection H as <- <- <-. split; [apply incl_refl|]. intros Q D p A.
        destruct stop as [t|]; [|discriminate]. apply Nat.eqb_eq in T. subst t.
        exists (Reach (D, p)). split; [now apply rgo_stop|]. right. split; [reflexivity|exact A].
      + assert (N : stop <> Some x).
        { intros ->. rewrite Nat.eqb_refl in T. discriminate. }
        destruct (IH _ _ _ _ _ _ _ H (V eq_refl) (R eq_refl N) (or_introl S)) as [I K]. split; [exact I|].
        intros Q D p A. destruct (K Q D p A) as [o [Ro O]]. exists o. split; [now apply rgo_block|exact O].
  Qed.

  (** A branch of a conditional: [emit] with the block after as a stop. *)
  Lemma branch_ok f : emit_ok f -> forall b a x deps c d q, after_of (b_end (g b)) = Some a -> In x (branches (b_end (g b))) ->
    b_state (g x) = false -> Vis x -> emit g r ffi f true (Some a) x deps = Some (c, d, q) -> incl deps d /\
    forall Q D p, agree Q D deps -> exists o, run g J Q (Some a) x (D, p) o /\ outcome Q (vexecs Q c (D, p)) d o.
  Proof.
    intros IH b a x deps c d q E I S V H. apply (IH _ _ _ _ _ _ _ H V); [|now left].
    exists b. split; [exact E|now apply reg_start].
  Qed.

  Lemma emit_after_ok f : emit_ok f -> forall stop b a deps c d q, after_of (b_end (g b)) = Some a -> inreg stop b ->
    b_state (g a) = false -> Vis a -> emit g r ffi f true stop a deps = Some (c, d, q) -> incl deps d /\
    forall Q D p, agree Q D deps -> exists o, rgo g J Q stop a (D, p) o /\ outcome Q (vexecs Q c (D, p)) d o.
  Proof.
    intros IH stop b a deps c d q E I S V H.
    assert (Ia : inreg stop a) by exact (inreg_after stop b a I E S).
    destruct (IH _ _ _ _ _ _ _ H V Ia (or_introl S)) as [K1 K2]. split; [exact K1|].
    intros Q D p A. destruct (K2 Q D p A) as [o [R O]]. exists o. split; [|exact O].
    apply rgo_block; [exact S|now apply inreg_not_stop|exact R].
  Qed.

  Lemma obind_some {A B} (o : option A) (f : A -> option B) y : obind o f = Some y -> exists x, o = Some x /\ f x = Some y.
  Proof. destruct o; cbn; [eauto|discriminate]. Qed.

  (** Cases of a switch. *)
  Lemma cases_ok f a d1 : emit_ok f -> forall b, after_of (b_end (g b)) = Some a ->
    forall cs, (forall x, In x (map snd cs) -> In x (branches (b_end (g b))) /\ b_state (g x) = false /\ Vis x) -> forall bs d q,
    (fix all (cs : list (option Z * nat)) : option (list (option Z * list vst) * list var * list nat) :=
       match cs with
       | [] => Some ([], [], [])
       | (v, cb) :: cs' =>
           do (c, d, q) <- emit g r ffi f true (Some a) cb d1;
           do (bs, d', q') <- all cs';
           Some ((v, c) :: bs, d ++ d', q ++ q')
       end) cs = Some (bs, d, q) ->
    map fst bs = map fst cs /\
    forall v, match pick v cs with
      | None => pick v bs = None
      | Some x => exists c dx, pick v bs = Some c /\ incl dx d /\
          forall Q D p, agree Q D d1 -> exists o, run g J Q (Some a) x (D, p) o /\ outcome Q (vexecs Q c (D, p)) dx o
      end.
  Proof.
    intros IH b E cs Hc.
    assert (Gen : forall bs d q,
      (fix all (cs : list (option Z * nat)) : option (list (option Z * list vst) * list var * list nat) :=
       match cs with
       | [] => Some ([], [], [])
       | (v, cb) :: cs' =>
           do (c, d, q) <- emit g r ffi f true (Some a) cb d1;
           do (bs, d', q') <- all cs';
           Some ((v, c) :: bs, d ++ d', q ++ q')
       end) cs = Some (bs, d, q) ->
      map fst bs = map fst cs /\
      (forall v, match pick_case v cs with
      | None => pick_case v bs = None
      | Some x => exists c dx, pick_case v bs = Some c /\ incl dx d /\
          forall Q D p, agree Q D d1 -> exists o, run g J Q (Some a) x (D, p) o /\ outcome Q (vexecs Q c (D, p)) dx o
      end) /\
      match pick_default cs with
      | None => pick_default bs = None
      | Some x => exists c dx, pick_default bs = Some c /\ incl dx d /\
          forall Q D p, agree Q D d1 -> exists o, run g J Q (Some a) x (D, p) o /\ outcome Q (vexecs Q c (D, p)) dx o
      end).
    { induction cs as [|[v cb] cs IHc]; intros bs d q H.
      - injection H as <- <- <-. cbn. auto.
      - apply obind_some in H. destruct H as [[[c dc] qc] [Hx H]].
        apply obind_some in H. destruct H as [[[bs' d'] q'] [Hr H]]. injection H as <- <- <-.
        destruct (IHc (fun x I => Hc x (or_intror I)) _ _ _ Hr) as [M [PC PD]].
        destruct (Hc cb (or_introl eq_refl)) as [Ib [Sb Vb]].
        destruct (branch_ok f IH b a cb d1 c dc qc E Ib Sb Vb Hx) as [_ K].
        split; [cbn; now rewrite M|]. cbn. split.
        + intros v0. destruct v as [z|].
          * destruct (z =? v0)%Z.
            -- exists c, dc. split; [reflexivity|split; [apply incl_appl, incl_refl|exact K]].
            -- specialize (PC v0). destruct (pick_case v0 cs); [|exact PC].
               destruct PC as [c0 [dx [P1 [P2 P3]]]]. exists c0, dx. split; [exact P1|split; [now apply incl_appr|exact P3]].
          * specialize (PC v0). destruct (pick_case v0 cs); [|exact PC].
            destruct PC as [c0 [dx [P1 [P2 P3]]]]. exists c0, dx. split; [exact P1|split; [now apply incl_appr|exact P3]].
        + destruct v as [z|].
          * destruct (pick_default cs); [|exact PD].
            destruct PD as [c0 [dx [P1 [P2 P3]]]]. exists c0, dx. split; [exact P1|split; [now apply incl_appr|exact P3]].
          * exists c, dc. split; [reflexivity|split; [apply incl_appl, incl_refl|exact K]]. }
    intros bs d q H. destruct (Gen bs d q H) as [M [PC PD]]. split; [exact M|].
    intros v. unfold pick. specialize (PC v). destruct (pick_case v cs).
    - destruct PC as [c0 [dx [P1 [P2 P3]]]]. rewrite P1. exists c0, dx. auto.
    - rewrite PC. destruct (pick_default cs); exact PD.
  Qed.

  (** Returns. *)
  Lemma rets_ok c rs : forall cs,
    (fix all (rs : list (Z * nat * option var)) : option (list (option Z * list vst)) :=
       match rs with
       | [] => Some []
       | (cid, b, sv) :: rs' => do i <- ffi b; do cs <- all rs';
           Some ((Some cid, VIdx i :: match sv with Some v => [VSet c (VQ v)] | None => [] end) :: cs)
       end) rs = Some cs ->
    length cs = length rs /\ pick_default cs = None /\
    (forall v, match pick_case v (map (fun r => (Some (fst (fst r)), (snd (fst r), snd r))) rs) with
      | None => pick_case v cs = None
      | Some (x, sv) => exists i, J x i /\ pick_case v cs = Some (VIdx i :: match sv with Some v => [VSet c (VQ v)] | None => [] end)
      end) /\
    match rs, cs with
    | (cid, x, sv) :: _, (_, k) :: _ => exists i, J x i /\ k = VIdx i :: match sv with Some v => [VSet c (VQ v)] | None => [] end
    | [], [] => True
    | _, _ => False
    end.
  Proof.
    induction rs as [|[[cid x] sv] rs IH]; intros cs H.
    - injection H as <-. cbn. auto.
    - apply obind_some in H. destruct H as [i [Hi H]]. apply obind_some in H. destruct H as [cs' [Hr H]]. injection H as <-.
      destruct (IH cs' Hr) as [L [PD [PC _]]]. cbn. split; [now rewrite L|]. split; [exact PD|]. split.
      + intros v. destruct (cid =? v)%Z; [|apply PC]. exists i. split; [now apply ffi_J|reflexivity].
      + exists i. split; [now apply ffi_J|reflexivity].
  Qed.

  Lemma pick_app_none {A} v (cs : list (option Z * A)) x : pick_default cs = None ->
    pick v (cs ++ [(None, x)]) = Some (match pick_case v cs with Some a => a | None => x end).
  Proof.
    intros H. unfold pick.
    assert (E : pick_case v (cs ++ [(None, x)]) = pick_case v cs).
    { clear H. induction cs as [|[[z|] a] cs IH]; cbn; [reflexivity| |exact IH]. destruct (z =? v)%Z; auto. }
    rewrite E. destruct (pick_case v cs); [reflexivity|].
    clear E. induction cs as [|[[z|] a] cs IH]; cbn in *; [reflexivity|auto|discriminate].
  Qed.

  Lemma emit_sound f : emit_ok f.
  Proof.
    induction f as [|f IH]; intros entry stop b deps c d q H V R S; cbn [emit] in H; [discriminate|].
    destruct (entry && match stop with Some _ => true | None => false end && b_state (g b)) eqn:En.
    { exfalso. apply andb_true_iff in En. destruct En as [En1 En2]. apply andb_true_iff in En1. destruct En1 as [_ En1].
      destruct S as [S| ->]; [congruence|discriminate]. }
    clear En S.
    destruct (write_ins (b_ins (g b)) deps) as [c1 d1] eqn:W.
    assert (HW : forall Q D p, agree Q D deps -> incl deps d1 /\ vexecs Q c1 (D, p) = exec_ins (b_ins (g b)) (D, p) /\
        agree Q (fst (exec_ins (b_ins (g b)) (D, p))) d1).
    { intros. eapply write_ins_ok; eassumption. }
    assert (I1 : incl deps d1).
    { destruct (HW (fun _ => 0%Z) (fun _ => 0%Z) 0) as [I _]; [intros x _; reflexivity|exact I]. }
    assert (VS : forall y, In y (succs g b) -> In (Some y) (children (b_end (g b)))).
    { intros y. unfold succs. destruct (b_end (g b)) as [|[n|]|e ib fi it eb fe et af|e cs af|e it af|e w n|cc sv cid go rt|cc rets]; cbn; try tauto.
      - intros [ ->|[]]. now left.
      - intros [ ->|[ ->|[]]]; auto.
      - intros [ ->|I]; apply in_app_iff; [right; now left|left]. apply in_map_iff in I. destruct I as [z [ <- Iz]].
        apply in_map_iff. exists z. auto.
      - intros [ ->|[ ->|[]]]; auto. }
    destruct (b_end (g b)) as [|[n|]|e ib fi it eb fe et af|e cs af|e it af|e w n|cc sv cid go rt|cc rets] eqn:E.
    - (* ENone *)
      injection H as <- <- <-. split; [exact I1|]. intros Q D p A. destruct (HW Q D p A) as [_ [X1 X2]].
      eexists. split; [apply r_none; exact E|]. left. rewrite vexecs_app, X1. cbn. reflexivity.
    - (* ENext *)
      apply obind_some in H. destruct H as [[[c' d'] q'] [H K]]. injection K as <- <- <-.
      change (follow f stop n d1 = Some (c', d', q')) in H.
      destruct (follow_ok f IH stop n d1 c' d' q' H) as [I2 K].
      + intros F. eapply vis_child; [exact V|rewrite E; now left|exact F].
      + intros F N. apply (inreg_succ stop b n R); [unfold succs; rewrite E; now left|exact F|exact N].
      + split; [now apply incl_tran with d1|]. intros Q D p A. destruct (HW Q D p A) as [_ [X1 X2]].
        rewrite vexecs_app, X1. destruct (exec_ins (b_ins (g b)) (D, p)) as [D1 p1] eqn:Ex.
        destruct (K Q D1 p1 X2) as [o [Ro O]]. exists o. split; [|exact O]. eapply r_next; [exact E|]. now rewrite Ex.
    - discriminate.
    - (* EIf *)
      assert (Ea : after_of (b_end (g b)) = Some af) by now rewrite E.
      pose proof (join b V) as Jb. unfold join_ok in Jb. rewrite E in Jb. destruct Jb as [Si [Se Jb]].
      assert (Vi : Vis ib). { eapply vis_child; [exact V|rewrite E; now left|exact Si]. }
      assert (Ve : Vis eb). { eapply vis_child; [exact V|rewrite E; right; now left|exact Se]. }
      assert (Va : b_state (g af) = false -> Vis af). { intros F. eapply vis_child; [exact V|rewrite E; right; right; now left|exact F]. }
      assert (Bi : In ib (branches (b_end (g b)))) by (rewrite E; now left).
      assert (Be : In eb (branches (b_end (g b)))) by (rewrite E; right; now left).
      apply obind_some in H. destruct H as [[[ci di] qi] [Hi H]].
      apply obind_some in H. destruct H as [[[ci2 di2] qi2] [Hi2 H]].
      apply obind_some in H. destruct H as [[[ce de] qe] [He H]].
      apply obind_some in H. destruct H as [[[ce2 de2] qe2] [He2 H]].
      destruct (branch_ok f IH b af ib d1 ci di qi Ea Bi Si Vi Hi) as [Ii Ki].
      destruct (branch_ok f IH b af eb d1 ce de qe Ea Be Se Ve He) as [Ie Ke].
      (* a branch, alone *)
      assert (Fini : never_reach af ib -> forall Q D p, agree Q D d1 -> run g J Q stop ib (D, p) (Fin (vexecs Q ci (D, p)))).
      { intros N Q D p A. destruct (Ki Q D p A) as [o [Ro O]]. destruct (N Q _ _ Ro) as [s' ->].
        destruct O as [[= ->]|[[=] _]]. exact (branch_lift Q stop b af ib (D, p) _ Ea R (reg_start b ib Bi) Ro). }
      assert (Fine : never_reach af eb -> forall Q D p, agree Q D d1 -> run g J Q stop eb (D, p) (Fin (vexecs Q ce (D, p)))).
      { intros N Q D p A. destruct (Ke Q D p A) as [o [Ro O]]. destruct (N Q _ _ Ro) as [s' ->].
        destruct O as [[= ->]|[[=] _]]. exact (branch_lift Q stop b af eb (D, p) _ Ea R (reg_start b eb Be) Ro). }
      assert (Reai : always_reach af ib -> forall Q D p, agree Q D d1 -> agree Q (fst (vexecs Q ci (D, p))) di /\
        forall o, rgo g J Q stop af (vexecs Q ci (D, p)) o -> run g J Q stop ib (D, p) o).
      { intros N Q D p A. destruct (Ki Q D p A) as [o [Ro O]]. destruct (N Q _ _ Ro) as [s' ->].
        destruct O as [[=]|[[= ->] Ag]]. split; [exact Ag|]. exact (branch_lift Q stop b af ib (D, p) _ Ea R (reg_start b ib Bi) Ro). }
      assert (Reae : always_reach af eb -> forall Q D p, agree Q D d1 -> agree Q (fst (vexecs Q ce (D, p))) de /\
        forall o, rgo g J Q stop af (vexecs Q ce (D, p)) o -> run g J Q stop eb (D, p) o).
      { intros N Q D p A. destruct (Ke Q D p A) as [o [Ro O]]. destruct (N Q _ _ Ro) as [s' ->].
        destruct O as [[=]|[[= ->] Ag]]. split; [exact Ag|]. exact (branch_lift Q stop b af eb (D, p) _ Ea R (reg_start b eb Be) Ro). }
      (* from the branches to the block *)
      assert (Up : forall Q D p o, rgo g J Q stop (if truth (eval (fst (exec_ins (b_ins (g b)) (D, p))) e) then ib else eb)
           (exec_ins (b_ins (g b)) (D, p)) o -> run g J Q stop b (D, p) o).
      { intros. eapply r_if; [exact E|eassumption]. }
      assert (Ni : stop <> Some ib) by exact (region_not_stop stop b ib af R Ea Bi).
      assert (Ne : stop <> Some eb) by exact (region_not_stop stop b eb af R Ea Be).
      destruct (b_state (g af)) eqn:Sa.
      + (* after is a state *)
        rewrite !andb_false_r in Hi2, He2. injection Hi2 as <- <- <-. injection He2 as <- <- <-. injection H as <- <- <-.
        split; [now apply incl_appl|]. intros Q D p A. destruct (HW Q D p A) as [_ [X1 X2]].
        rewrite vexecs_app, X1. cbn [vexecs]. rewrite vexec_if, (veval_rewrite _ _ _ _ X2).
        eexists. split; [apply Up|left; reflexivity].
        destruct (exec_ins (b_ins (g b)) (D, p)) as [D1 p1] eqn:Ex. cbn [fst].
        destruct (truth (eval D1 e)).
        * apply rgo_block; [exact Si|exact Ni|]. apply Fini; [|exact X2].
          intros Q0 s0 q0. now apply run_state_fin.
        * apply rgo_block; [exact Se|exact Ne|]. apply Fine; [|exact X2].
          intros Q0 s0 q0. now apply run_state_fin.
      + destruct (Jb eq_refl) as [AI [AE [NI [NE NB]]]]. specialize (Va eq_refl). cbn [negb] in *. rewrite !andb_true_r in *.
        assert (FA : forall d c' d' q', incl d1 d -> follow f stop af d = Some (c', d', q') -> incl d d' /\
          forall Q D p, agree Q D d -> exists o, rgo g J Q stop af (D, p) o /\ outcome Q (vexecs Q c' (D, p)) d' o).
        { intros d0 c' d' q' _ HF. apply (follow_ok f IH stop af d0 c' d' q' HF); [auto|].
          intros _ _. exact (inreg_after stop b af R Ea Sa). }
        destruct (dead r it) eqn:DI; destruct (dead r et) eqn:DE; cbn [negb andb orb] in *.
        * exfalso. now apply NB.
        * (* if is dead: else collapsed *)
          injection Hi2 as <- <- <-. apply obind_some in He2. destruct He2 as [[[ca da] qa] [He2 K]]. injection K as <- <- <-.
          injection H as <- <- <-. specialize (AE eq_refl). specialize (NI eq_refl).
          destruct (emit_after_ok f IH stop b af de ca da qa Ea R Sa Va He2) as [Ia Ka].
          split; [now apply incl_appl|]. intros Q D p A. destruct (HW Q D p A) as [_ [X1 X2]].
          rewrite vexecs_app, X1. cbn [vexecs]. rewrite vexec_if, (veval_rewrite _ _ _ _ X2).
          specialize (Up Q D p). destruct (exec_ins (b_ins (g b)) (D, p)) as [D1 p1] eqn:Ex. cbn [fst] in *.
          destruct (truth (eval D1 e)).
          -- eexists. split; [apply Up|left; reflexivity]. apply rgo_block; [exact Si|exact Ni|]. now apply Fini.
          -- destruct (Reae AE Q D1 p1 X2) as [Ag L]. rewrite vexecs_app.
             destruct (vexecs Q ce (D1, p1)) as [D2 p2]. destruct (Ka Q D2 p2 Ag) as [o [Ro O]].
             exists o. split; [apply Up; apply rgo_block; [exact Se|exact Ne|]; now apply L|].
             destruct O as [O|[O1 O2]]; [now left|right; split; [exact O1|]]. eapply agree_mono; [exact O2|].
             apply incl_appr, incl_appr, incl_refl.
        * (* else is dead: if collapsed *)
          injection He2 as <- <- <-. apply obind_some in Hi2. destruct Hi2 as [[[ca da] qa] [Hi2 K]]. injection K as <- <- <-.
          injection H as <- <- <-. specialize (AI eq_refl). specialize (NE eq_refl).
          destruct (emit_after_ok f IH stop b af di ca da qa Ea R Sa Va Hi2) as [Ia Ka].
          split; [now apply incl_appl|]. intros Q D p A. destruct (HW Q D p A) as [_ [X1 X2]].
          rewrite vexecs_app, X1. cbn [vexecs]. rewrite vexec_if, (veval_rewrite _ _ _ _ X2).
          specialize (Up Q D p). destruct (exec_ins (b_ins (g b)) (D, p)) as [D1 p1] eqn:Ex. cbn [fst] in *.
          destruct (truth (eval D1 e)).
          -- destruct (Reai AI Q D1 p1 X2) as [Ag L]. rewrite vexecs_app.
             destruct (vexecs Q ci (D1, p1)) as [D2 p2]. destruct (Ka Q D2 p2 Ag) as [o [Ro O]].
             exists o. split; [apply Up; apply rgo_block; [exact Si|exact Ni|]; now apply L|].
             destruct O as [O|[O1 O2]]; [now left|right; split; [exact O1|]]. eapply agree_mono; [exact O2|].
             apply incl_appr, incl_appl, incl_refl.
          -- eexists. split; [apply Up|left; reflexivity]. apply rgo_block; [exact Se|exact Ne|]. now apply Fine.
        * (* both reach after *)
          injection Hi2 as <- <- <-. injection He2 as <- <- <-. specialize (AI eq_refl). specialize (AE eq_refl).
          apply obind_some in H. destruct H as [[[c' d'] q'] [H K]]. injection K as <- <- <-.
          change (obind (follow f stop af (d1 ++ di ++ de)) (fun z => Some z) = Some (c', d', q')) in H || idtac.
          assert (HF : follow f stop af (d1 ++ di ++ de) = Some (c', d', q')).
          { unfold follow. rewrite Sa. exact H. }
          destruct (FA _ _ _ _ (incl_appl _ (incl_refl d1)) HF) as [I2 K2].
          split; [apply incl_tran with d1; [exact I1|]; apply incl_tran with (d1 ++ di ++ de); [apply incl_appl, incl_refl|exact I2]|].
          intros Q D p A. destruct (HW Q D p A) as [_ [X1 X2]].
          rewrite !vexecs_app, X1. cbn [vexecs]. rewrite vexec_if, (veval_rewrite _ _ _ _ X2).
          specialize (Up Q D p). destruct (exec_ins (b_ins (g b)) (D, p)) as [D1 p1] eqn:Ex. cbn [fst] in *.
          destruct (truth (eval D1 e)).
          -- destruct (Reai AI Q D1 p1 X2) as [Ag L].
             destruct (vexecs Q ci (D1, p1)) as [D2 p2]. destruct (K2 Q D2 p2) as [o [Ro O]].
             { eapply agree_mono; [exact Ag|]. apply incl_appr, incl_appl, incl_refl. }
             exists o. split; [apply Up; apply rgo_block; [exact Si|exact Ni|]; now apply L|exact O].
          -- destruct (Reae AE Q D1 p1 X2) as [Ag L].
             destruct (vexecs Q ce (D1, p1)) as [D2 p2]. destruct (K2 Q D2 p2) as [o [Ro O]].
             { eapply agree_mono; [exact Ag|]. apply incl_appr, incl_appr, incl_refl. }
             exists o. split; [apply Up; apply rgo_block; [exact Se|exact Ne|]; now apply L|exact O].
    - (* ESwitch *)
      assert (Ea : after_of (b_end (g b)) = Some af) by now rewrite E.
      pose proof (join b V) as Jb. unfold join_ok in Jb. rewrite E in Jb. destruct Jb as [Sc Jb].
      assert (Hc : forall x, In x (map snd cs) -> In x (branches (b_end (g b))) /\ b_state (g x) = false /\ Vis x).
      { intros x Ix. split; [rewrite E; exact Ix|]. split; [now apply Sc|]. eapply vis_child; [exact V| |now apply Sc].
        rewrite E. cbn. apply in_app_iff. left. apply in_map_iff in Ix. destruct Ix as [z [ <- Iz]]. apply in_map_iff. exists z. auto. }
      assert (Va : b_state (g af) = false -> Vis af).
      { intros F. eapply vis_child; [exact V| |exact F]. rewrite E. cbn. apply in_app_iff. right. now left. }
      apply obind_some in H. destruct H as [[[bs db] qb] [Hb H]].
      destruct (cases_ok f af d1 IH b Ea cs Hc bs db qb Hb) as [_ PK].
      assert (Up : forall Q D p o, rgo g J Q stop (match pick (eval (fst (exec_ins (b_ins (g b)) (D, p))) e) cs with Some x => x | None => af end)
           (exec_ins (b_ins (g b)) (D, p)) o -> run g J Q stop b (D, p) o).
      { intros. eapply r_switch; [exact E|eassumption]. }
      destruct (b_state (g af)) eqn:Sa.
      + injection H as <- <- <-. split; [now apply incl_appl|].
        intros Q D p A. destruct (HW Q D p A) as [_ [X1 X2]].
        rewrite vexecs_app, X1. cbn [vexecs]. rewrite vexec_case, (veval_rewrite _ _ _ _ X2).
        specialize (Up Q D p). destruct (exec_ins (b_ins (g b)) (D, p)) as [D1 p1] eqn:Ex. cbn [fst] in *.
        specialize (PK (eval D1 e)). specialize (Jb (eval D1 e)).
        destruct (pick (eval D1 e) cs) as [x|] eqn:Ep; [|congruence].
        destruct PK as [cx [dx [P1 [P2 P3]]]]. rewrite P1. destruct (P3 Q D1 p1 X2) as [o [Ro O]].
        destruct (Hc x (pick_in _ _ _ Ep)) as [Bx [Sx Vx]].
        destruct (run_state_fin g J Q af Sa _ _ _ Ro) as [s' ->]. destruct O as [[= O]|[[=] _]]. rewrite O in *.
        eexists. split; [apply Up|left; reflexivity].
        apply rgo_block; [exact Sx|exact (region_not_stop stop b x af R Ea Bx)|].
        exact (branch_lift Q stop b af x (D1, p1) _ Ea R (reg_start b x Bx) Ro).
      + apply obind_some in H. destruct H as [[[c' d'] q'] [H K]]. injection K as <- <- <-.
        assert (HF : follow f stop af (d1 ++ db) = Some (c', d', q')).
        { unfold follow. rewrite Sa. exact H. }
        destruct (follow_ok f IH stop af (d1 ++ db) c' d' q' HF) as [I2 K2]; [auto|intros _ _; exact (inreg_after stop b af R Ea Sa)|].
        split; [apply incl_tran with d1; [exact I1|]; apply incl_tran with (d1 ++ db); [apply incl_appl, incl_refl|exact I2]|].
        intros Q D p A. destruct (HW Q D p A) as [_ [X1 X2]].
        rewrite !vexecs_app, X1. cbn [vexecs]. rewrite vexec_case, (veval_rewrite _ _ _ _ X2).
        specialize (Up Q D p). destruct (exec_ins (b_ins (g b)) (D, p)) as [D1 p1] eqn:Ex. cbn [fst] in *.
        specialize (PK (eval D1 e)).
        destruct (pick (eval D1 e) cs) as [x|] eqn:Ep.
        * destruct PK as [cx [dx [P1 [P2 P3]]]]. rewrite P1. destruct (P3 Q D1 p1 X2) as [o [Ro O]].
          destruct (Hc x (pick_in _ _ _ Ep)) as [Bx [Sx Vx]].
          destruct (Jb x (pick_in _ _ _ Ep) Q _ _ Ro) as [s' ->]. destruct O as [[=]|[[= O] Ag]]. rewrite O in *.
          pose proof (branch_lift Q stop b af x (D1, p1) _ Ea R (reg_start b x Bx) Ro) as L. cbn in L.
          destruct (vexecs Q cx (D1, p1)) as [D2 p2]. destruct (K2 Q D2 p2) as [o2 [Ro2 O2]].
          { eapply agree_mono; [exact Ag|]. now apply incl_appr. }
          exists o2. split; [|exact O2]. apply Up.
          apply rgo_block; [exact Sx|exact (region_not_stop stop b x af R Ea Bx)|]. now apply L.
        * rewrite PK. destruct (K2 Q D1 p1) as [o [Ro O]]; [eapply agree_mono; [exact X2|apply incl_appl, incl_refl]|].
          exists o. split; [now apply Up|exact O].
    - (* EWhile *)
      assert (Ea : after_of (b_end (g b)) = Some af) by now rewrite E.
      pose proof (join b V) as Jb. unfold join_ok in Jb. rewrite E in Jb. destruct Jb as [Si Jb].
      assert (Vi : Vis it). { eapply vis_child; [exact V|rewrite E; now left|exact Si]. }
      assert (Va : b_state (g af) = false -> Vis af). { intros F. eapply vis_child; [exact V|rewrite E; right; now left|exact F]. }
      assert (Bi : In it (branches (b_end (g b)))) by (rewrite E; now left).
      assert (Ni : stop <> Some it) by exact (region_not_stop stop b it af R Ea Bi).
      apply obind_some in H. destruct H as [[[ci di] qi] [Hi H]].
      apply obind_some in H. destruct H as [[[ce de] qe] [He H]]. injection H as <- <- <-.
      destruct (branch_ok f IH b af it d1 ci di qi Ea Bi Si Vi Hi) as [Ii Ki].
      assert (NI : never_reach af it).
      { destruct (b_state (g af)) eqn:Sa; [|auto]. intros Q0 s0 q0. now apply run_state_fin. }
      assert (He' : incl d1 de /\ forall Q D p, agree Q D d1 -> exists o, rgo g J Q stop af (D, p) o /\ outcome Q (vexecs Q ce (D, p)) de o).
      { destruct (b_state (g af)) eqn:Sa.
        - destruct (goto_ok _ _ _ _ _ He) as [-> [_ [i [Ji Ei]]]]. split; [apply incl_refl|].
          intros Q D p A. exists (Fin (D, i)). split; [exact (rgo_state g J Q stop af (D, p) i Sa Ji)|]. left. now rewrite Ei.
        - exact (emit_after_ok f IH stop b af d1 ce de qe Ea R Sa (Va eq_refl) He). }
      destruct He' as [Ie Ke].
      split; [now apply incl_appl|]. intros Q D p A. destruct (HW Q D p A) as [_ [X1 X2]].
      rewrite vexecs_app, X1. cbn [vexecs]. rewrite vexec_if, (veval_rewrite _ _ _ _ X2).
      assert (Up : forall o, rgo g J Q stop (if truth (eval (fst (exec_ins (b_ins (g b)) (D, p))) e) then it else af)
           (exec_ins (b_ins (g b)) (D, p)) o -> run g J Q stop b (D, p) o).
      { intros. eapply r_while; [exact E|eassumption]. }
      destruct (exec_ins (b_ins (g b)) (D, p)) as [D1 p1] eqn:Ex. cbn [fst] in *.
      destruct (truth (eval D1 e)).
      + destruct (Ki Q D1 p1 X2) as [o [Ro O]]. destruct (NI Q _ _ Ro) as [s' ->]. destruct O as [[= O]|[[=] _]]. rewrite O in *.
        eexists. split; [apply Up|left; reflexivity].
        apply rgo_block; [exact Si|exact Ni|]. exact (branch_lift Q stop b af it (D1, p1) _ Ea R (reg_start b it Bi) Ro).
      + destruct (Ke Q D1 p1 X2) as [o [Ro O]]. exists o. split; [now apply Up|].
        destruct O as [O|[O1 O2]]; [now left|right; split; [exact O1|]]. eapply agree_mono; [exact O2|].
        apply incl_appr, incl_appr, incl_refl.
    - (* EWait *)
      apply obind_some in H. destruct H as [iw [Hw H]]. apply obind_some in H. destruct H as [i_n [Hn H]]. injection H as <- <- <-.
      split; [exact I1|]. intros Q D p A. destruct (HW Q D p A) as [_ [X1 X2]].
      rewrite vexecs_app, X1. cbn [vexecs]. rewrite vexec_if, veval_Q.
      eexists. split; [eapply r_wait; [exact E|]|].
      + instantiate (1 := if truth (eval Q e) then i_n else iw). destruct (truth (eval Q e)); now apply ffi_J.
      + left. destruct (exec_ins (b_ins (g b)) (D, p)) as [D1 p1]. destruct (truth (eval Q e)); reflexivity.
    - (* ECall *)
      apply obind_some in H. destruct H as [i [Hi H]]. injection H as <- <- <-.
      split; [exact I1|]. intros Q D p A. destruct (HW Q D p A) as [_ [X1 X2]].
      rewrite vexecs_app, X1.
      eexists. split; [eapply r_call; [exact E|now apply ffi_J; eassumption]|]. left.
      destruct (exec_ins (b_ins (g b)) (D, p)) as [D1 p1]. destruct sv as [v|]; reflexivity.
    - (* ERet *)
      apply obind_some in H. destruct H as [cs [Hc H]].
      destruct (rets_ok cc rets cs Hc) as [L [PD [PC PH]]].
      destruct rets as [|[[cid x] sv] rets].
      + destruct cs; [|discriminate]. injection H as <- <- <-. split; [exact I1|].
        intros Q D p A. destruct (HW Q D p A) as [_ [X1 X2]]. rewrite vexecs_app, X1.
        eexists. split; [eapply r_ret_none; [exact E|reflexivity]|]. left. reflexivity.
      + destruct cs as [|[z k] cs]; [discriminate|]. destruct PH as [i [Ji ->]].
        destruct rets as [|r2 rets].
        * destruct cs; [|discriminate]. injection H as <- <- <-. split; [exact I1|].
          intros Q D p A. destruct (HW Q D p A) as [_ [X1 X2]]. rewrite vexecs_app, X1.
          eexists. split; [eapply r_ret; [exact E|reflexivity|exact Ji]|]. left.
          destruct (exec_ins (b_ins (g b)) (D, p)) as [D1 p1]. destruct sv; reflexivity.
        * destruct cs as [|k2 cs]; [discriminate|]. injection H as <- <- <-. split; [exact I1|].
          intros Q D p A. destruct (HW Q D p A) as [_ [X1 X2]]. rewrite vexecs_app, X1. cbn [vexecs]. rewrite vexec_case.
          pose proof (fun v (y : list vst) => pick_app_none v _ y PD) as PA. cbn [app] in PA. rewrite PA. cbn [veval]. specialize (PC (Q cc)).
          assert (EP : pick_ret (Q cc) ((cid, x, sv) :: r2 :: rets) =
             pick_case (Q cc) (map (fun r => (Some (fst (fst r)), (snd (fst r), snd r))) ((cid, x, sv) :: r2 :: rets))) by reflexivity.
          destruct (pick_case (Q cc) (map (fun r => (Some (fst (fst r)), (snd (fst r), snd r))) ((cid, x, sv) :: r2 :: rets))) as [[y sy]|].
          -- destruct PC as [iy [Jy Py]]. rewrite Py. eexists. split; [eapply r_ret; [exact E|exact EP|exact Jy]|]. left.
             destruct (exec_ins (b_ins (g b)) (D, p)) as [D1 p1]. destruct sy; reflexivity.
          -- rewrite PC. eexists. split; [eapply r_ret_none; [exact E|exact EP]|]. left.
             destruct (exec_ins (b_ins (g b)) (D, p)) as [D1 p1]. reflexivity.
  Qed.
End Sound.
