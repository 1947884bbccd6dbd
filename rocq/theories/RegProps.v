(** C35: registers, reset and start of the state machine. C36: delayed assignments. *)
From Coq Require Import List Bool Arith ZArith Lia.
Import ListNotations.
From Verif Require Import FsmModel FsmRun RegModel.

(** * C35 *)
(** At a clock edge: a register with an initializer takes it on reset, and when the algorithm is being called; a register with a startup initializer
    or without initializer, and any register otherwise, takes the value computed during the cycle. *)
Theorem C35_edge : forall a v r reset run d, reg_rhs a v = Some r ->
  (forall i, v_init v = Some i -> v_startup v = false -> v_noinit v = false ->
     (reset = true -> reg_edge r reset run d = i) /\
     (a_fsm a = true -> a_auto a = false -> run = false -> reg_edge r reset run d = i) /\
     (reset = false -> (a_fsm a = true -> a_auto a = false -> run = true) -> reg_edge r reset run d = d)) /\
  (v_init v = None \/ v_startup v = true \/ v_noinit v = true -> reg_edge r reset run d = d).
Proof.
  intros a v r reset run d R. split.
  - intros i I S N. unfold reg_rhs, init_cond, callable in R. rewrite I, S, N in R. cbn in R.
    destruct (a_auto a), (a_fsm a); cbn in R; injection R as <-; cbn; destruct reset, run; cbn; repeat split; try discriminate; auto; intros; try discriminate.
    all: try (now specialize (H0 eq_refl eq_refl)).
  - unfold reg_rhs, init_cond in R. destruct (v_init v) as [i|]; [|destruct (v_noinit v); [injection R as <-; reflexivity|discriminate]].
    intros [H|[H|H]]; [discriminate|rewrite H in R; cbn in R|rewrite H, orb_true_r in R]; injection R as <-; reflexivity.
Qed.
Print Assumptions C35_edge.
Example C35_edge_ex : let v := {| v_init := Some 5%Z; v_startup := false; v_noinit := false |} in
  let a := {| a_fsm := true; a_auto := false |} in exists r, reg_rhs a v = Some r /\
  map (fun b => reg_edge r (fst b) (snd b) 9) [(true, true); (true, false); (false, false); (false, true)] = [5; 5; 5; 9]%Z.
Proof. eexists. split; reflexivity. Qed.

(** Over time: the register holds the value computed in the last cycle that did not initialize it... *)
Definition inits (a : alg) (reset run : nat -> bool) (n : nat) : bool := reset n || (a_fsm a && negb (a_auto a) && negb (run n)).
Theorem C35_history : forall a v i r reset run d n q0, reg_rhs a v = Some r -> v_init v = Some i -> v_startup v = false -> v_noinit v = false ->
  reg_run r reset run d (S n) q0 = if inits a reset run n then i else d n (reg_run r reset run d n q0).
Proof.
  intros a v i r reset run d n q0 R I S N. cbn [reg_run]. unfold reg_rhs, init_cond, callable in R. rewrite I, S, N in R. cbn in R.
  unfold inits. destruct (a_auto a), (a_fsm a); cbn in *; injection R as <-; cbn; destruct (reset n), (run n); reflexivity.
Qed.
Print Assumptions C35_history.
(** ... so it keeps its initial value as long as no cycle assigns it, whatever it contained before the first initialization. *)
Theorem C35_keeps_initial : forall a v i r reset run d k n q0, reg_rhs a v = Some r -> v_init v = Some i -> v_startup v = false -> v_noinit v = false ->
  inits a reset run k = true -> k < n -> (forall j q, k < j < n -> inits a reset run j = false -> d j q = q) ->
  reg_run r reset run d n q0 = i.
Proof.
  intros a v i r reset run d k n q0 R I S N Hk L H. induction n as [|n IH]; [lia|].
  rewrite (C35_history a v i) by assumption. destruct (inits a reset run n) eqn:E; [reflexivity|].
  destruct (Nat.eq_dec n k) as [ ->|Ne]; [congruence|]. rewrite H by (auto; lia). apply IH; [lia|]. intros j q Hj. apply H. lia.
Qed.
Print Assumptions C35_keeps_initial.
(** Startup initializer: the value at power-up, kept through resets until assigned. *)
Theorem C35_startup : forall a v i r reset run d n, reg_rhs a v = Some r -> v_init v = Some i -> v_startup v = true ->
  power_up false v = Some i /\ ((forall j q, j < n -> d j q = q) -> reg_run r reset run d n i = i).
Proof.
  intros a v i r reset run d n R I S. split; [unfold power_up; now rewrite I, S|]. unfold reg_rhs, init_cond in R. rewrite I, S in R. cbn in R. injection R as <-.
  induction n as [|n IH]; intros H; [reflexivity|]. cbn [reg_run reg_edge]. rewrite H by lia. apply IH. intros j q Hj. apply H. lia.
Qed.
Print Assumptions C35_startup.
Example C35_history_ex : let v := {| v_init := Some 5%Z; v_startup := false; v_noinit := false |} in let a := {| a_fsm := true; a_auto := true |} in
  exists r, reg_rhs a v = Some r /\ map (fun n => reg_run r (fun k => k <? 2) (fun _ => true) (fun k q => if k =? 4 then (q + 1)%Z else q) n 77%Z) (seq 0 7) = [77; 5; 5; 5; 5; 6; 6]%Z.
Proof. eexists. split; reflexivity. Qed.

(** The clock edge of the module is the clock edge of each register. *)
Lemma mod_edge_at vr reset run d x : mod_edge vr reset run d x = match vr x with Some r => reg_edge r reset run (d x) | None => d x end.
Proof. unfold mod_edge. destruct (vr x) as [[|[] i]|] eqn:E; destruct reset, run; cbn; rewrite ?E; reflexivity. Qed.

(** The module of an algorithm that starts by itself: after a reset, it waits one cycle, then follows its state machine, from the entry state and
    the values left by the reset and one execution of the always block. An algorithm that is called has the same behavior, [run] being low in the
    cycle of the call: see C35_called. *)
Theorem C35_autorun : forall a m vr inp pre reset s0 k s n,
  a_auto a = true -> let run := fun _ => true in mod_run a m vr inp pre reset run (S k) s0 = Some s ->
  reset k = true -> (forall j, k < j -> reset j = false) ->
  m_idx s = 0 /\ m_auto s = false /\
  forall D i, runs m (fun t => inp (S (S k) + t)) (fun t => pre (S (S k) + t)) n (pre (S k) (inp (S k) (m_q s))) = Some (D, i) ->
  mod_run a m vr inp pre reset run (S (S k) + n) s0 = Some {| m_q := D; m_idx := i; m_auto := true |}.
Proof.
  intros a m vr inp pre reset s0 k s n A run K R0 R.
  assert (B : m_idx s = 0 /\ m_auto s = false).
  { cbn [mod_run] in K. unfold obind in K. destruct (mod_run a m vr inp pre reset run k s0) as [s1|]; [|discriminate]. unfold mod_step, obind in K.
    destruct (cycle m _ _ _) as [[d i]|]; [|discriminate]. injection K as <-. unfold idx_edge, auto_edge. cbn. now rewrite R0. }
  destruct B as [I0 A0]. split; [exact I0|]. split; [exact A0|]. induction n as [|n IH]; intros D i H.
  - cbn in H. injection H as <- <-. rewrite Nat.add_0_r. change (mod_run a m vr inp pre reset run (S (S k)) s0) with
      (do s' <- mod_run a m vr inp pre reset run (S k) s0; mod_step a m vr inp pre reset run (S k) s'). unfold obind. rewrite K. unfold mod_step, obind. rewrite I0. cbn [cycle Nat.eqb].
    unfold mod_edge, idx_edge, next_state, auto_edge. rewrite R, A, A0 by lia. reflexivity.
  - cbn [runs] in H. unfold obind in H. destruct (runs m _ _ n _) as [[D1 i1]|] eqn:E; [|discriminate].
    specialize (IH D1 i1 eq_refl). rewrite Nat.add_succ_r. cbn [mod_run]. unfold obind. rewrite IH. unfold mod_step, obind. cbn [m_q m_idx m_auto].
    rewrite H. unfold mod_edge, idx_edge, next_state, auto_edge. rewrite R, A by lia. reflexivity.
Qed.
Print Assumptions C35_autorun.

(** The module of an algorithm that is called: terminated, it stays terminated until [run] is low; in the cycle after [run] is low it is in the entry
    state, its registers initialized, and follows its state machine from there. *)
Theorem C35_called : forall a m vr inp pre reset run s0 k s n,
  a_auto a = false -> mod_run a m vr inp pre reset run k s0 = Some s -> (forall j, k <= j -> reset j = false) ->
  (m_idx s = 0 -> (forall j, k <= j < k + n -> run j = true) -> exists s', mod_run a m vr inp pre reset run (k + n) s0 = Some s' /\ m_idx s' = 0) /\
  (run k = false -> (forall j, k < j -> run j = true) -> forall sk, mod_run a m vr inp pre reset run (S k) s0 = Some sk ->
     m_idx sk = f_entry m /\ (forall x i, vr x = Some (Mux OnResetOrNotRun i) -> m_q sk x = i) /\
     forall D i, runs m (fun t => inp (S k + t)) (fun t => pre (S k + t)) n (m_q sk) = Some (D, i) ->
     mod_run a m vr inp pre reset run (S k + n) s0 = Some {| m_q := D; m_idx := i; m_auto := true |}).
Proof.
  intros a m vr inp pre reset run s0 k s n A K R. split.
  - intros I0 H. induction n as [|n IH]; [rewrite Nat.add_0_r; eauto|]. destruct IH as [s1 [M1 J1]]; [intros j Hj; apply H; lia|].
    rewrite Nat.add_succ_r. cbn [mod_run]. unfold obind. rewrite M1. unfold mod_step, obind. rewrite J1. cbn [cycle Nat.eqb].
    eexists. split; [reflexivity|]. cbn [m_idx]. unfold idx_edge, next_state. rewrite R, A, H by lia. reflexivity.
  - intros R0 R1 sk Hk.
    assert (B : m_idx sk = f_entry m /\ m_auto sk = true /\ (forall x i, vr x = Some (Mux OnResetOrNotRun i) -> m_q sk x = i)).
    { cbn [mod_run] in Hk. unfold obind in Hk. rewrite K in Hk. unfold mod_step, obind in Hk. destruct (cycle m _ _ _) as [[d i]|]; [|discriminate]. injection Hk as <-.
      cbn [m_idx m_auto m_q]. unfold idx_edge, next_state, auto_edge. rewrite A, R, R0 by lia. repeat split. intros x j E. rewrite mod_edge_at, E. reflexivity. }
    destruct B as [I [U X]]. split; [exact I|]. split; [exact X|]. clear X. induction n as [|n IH]; intros D i H.
    + cbn in H. injection H as <- <-. rewrite Nat.add_0_r. rewrite Hk. destruct sk. cbn in *. now subst.
    + cbn [runs] in H. unfold obind in H. destruct (runs m _ _ n _) as [[D1 i1]|] eqn:E; [|discriminate].
      specialize (IH D1 i1 eq_refl). rewrite Nat.add_succ_r. cbn [mod_run]. unfold obind. rewrite IH. unfold mod_step, obind. cbn [m_q m_idx m_auto].
      rewrite H. unfold mod_edge, idx_edge, next_state, auto_edge. rewrite R, R1, A by lia. reflexivity.
Qed.
Print Assumptions C35_called.

(** a = 0 (variable 0, initialized at 3), then a = a + 1 ; ++: a = a + 10 *)
Definition p35 : list stmt := [ SAssign 0 (EB Z.add (EV 0) (EC 1)); SStep; SAssign 0 (EB Z.add (EV 0) (EC 10)) ].
Definition vr35 (c : icond) (x : var) : option upd_rhs := if Nat.eqb x 0 then Some (Mux c 3%Z) else None.
Definition none35 : nat -> store -> store := fun _ s => s.
Definition trace35 (a : alg) (m : fsm) (c : icond) (reset run : nat -> bool) (n : nat) (s : mod_st) : list (option (nat * Z)) :=
  map (fun k => option_map (fun s => (m_idx s, m_q s 0)) (mod_run a m (vr35 c) none35 none35 reset run k s)) (seq 0 n).
Example C35_autorun_ex : exists m, compile 100 true [] p35 = Some m /\
  trace35 {| a_fsm := true; a_auto := true |} m OnReset (fun k => k =? 0) (fun _ => true) 6 {| m_q := fun _ => 99%Z; m_idx := 0; m_auto := true |} =
  map Some [(0, 99%Z); (0, 3%Z); (1, 3%Z); (2, 4%Z); (0, 14%Z); (0, 14%Z)].
Proof. eexists. split; vm_compute; reflexivity. Qed.
Example C35_called_ex : exists m, compile 100 true [] p35 = Some m /\
  trace35 {| a_fsm := true; a_auto := false |} m OnResetOrNotRun (fun k => k =? 0) (fun k => negb (k =? 2)) 8 {| m_q := fun _ => 99%Z; m_idx := 0; m_auto := true |} =
  map Some [(0, 99%Z); (0, 3%Z); (0, 3%Z); (1, 3%Z); (2, 4%Z); (0, 14%Z); (0, 14%Z); (0, 14%Z)].
Proof. eexists. split; vm_compute; reflexivity. Qed.

(** * C36 *)
Definition assigned (l : list alw) (x : var) : Prop := exists e, In (ASet x e) l \/ exists t, In (ADelay x e t) l.
(** The variable created for a ::= is used nowhere else: its name is made of the position in the source text. *)
Definition unused (t : var) (a : alw) : Prop :=
  match a with ASet x e => x <> t /\ ~ In t (evars e) | ADelay x e t' => x <> t /\ t' <> t /\ ~ In t (evars e) | APartDelay => True end.

Lemma eval_agree s s2 e : (forall y, In y (evars e) -> s y = s2 y) -> eval s e = eval s2 e.
Proof. induction e; cbn; intros H; [reflexivity|apply H; now left|now rewrite IHe|rewrite IHe1, IHe2; [reflexivity| |]; intros y Hy; apply H, in_or_app; auto]. Qed.
Lemma upd_ne s x v y : y <> x -> upd s x v y = s y.
Proof. intros H. unfold upd. apply Nat.eqb_neq in H. now rewrite H. Qed.
Lemma upd_eq s x v : upd s x v x = v.
Proof. unfold upd. now rewrite Nat.eqb_refl. Qed.
Lemma aexecs_unused Q l t : Forall (unused t) l -> forall D deps D' deps', aexecs Q l (D, deps) = AOk (D', deps') -> D' t = D t.
Proof.
  induction 1 as [|a l U _ IH]; cbn [aexecs]; intros D deps D' deps' H; [now injection H as <- <-|].
  destruct (aexec Q a (D, deps)) as [[D1 deps1]| |] eqn:E; cbn in H; [|discriminate|discriminate]. rewrite (IH _ _ _ _ H).
  destruct a as [x e|x e t'|]; cbn in E; [| |discriminate]; (destruct (self_d x e deps); [discriminate|]); injection E as <- <-; cbn in U.
  - apply upd_ne. intuition congruence.
  - rewrite !upd_ne; intuition congruence.
Qed.
Lemma aexecs_app Q l1 l2 : forall s, aexecs Q (l1 ++ l2) s = abind (aexecs Q l1 s) (aexecs Q l2).
Proof. induction l1 as [|a l1 IH]; intros s; cbn [app aexecs]; [reflexivity|]. destruct (aexec Q a s); [apply IH|reflexivity|reflexivity]. Qed.
Lemma memb_in x l : memb x l = true <-> In x l.
Proof. unfold memb. rewrite existsb_exists. split; [intros [y [H1 H2]]; apply Nat.eqb_eq in H2; now subst|intros H; exists x; split; [exact H|apply Nat.eqb_refl]]. Qed.

(** In an always block, at every cycle but the first: the value given by x ::= e is the value of the expression at the previous cycle.
    [rest]: everything that happens after the always block, and inputs. *)
Theorem C36_one_cycle : forall L1 x e t L2 rest n q0 q q' D1 deps1 D2 deps2,
  let L := L1 ++ ADelay x e t :: L2 in
  Forall (unused t) L1 -> Forall (unused t) L2 -> x <> t -> ~ In t (evars e) -> (forall k s, rest k s t = s t) ->
  arun L rest n q0 = AOk q -> aexecs q L1 (q, []) = AOk (D1, deps1) ->
  arun L rest (S n) q0 = AOk q' -> aexecs q' L1 (q', []) = AOk (D2, deps2) ->
  forall D3 deps3, aexec q' (ADelay x e t) (D2, deps2) = AOk (D3, deps3) -> D3 x = eval (val_of q D1 deps1) e.
Proof.
  intros L1 x e t L2 rest n q0 q q' D1 deps1 D2 deps2 L U1 U2 Nx Ne RT A1 E1 A2 E2 D3 deps3 E3.
  cbn [arun] in A2. rewrite A1 in A2. cbn [abind] in A2. unfold L in A2. rewrite aexecs_app, E1 in A2.
  cbn [abind aexecs aexec] in A2. destruct (self_d x e deps1) eqn:S1; cbn [abind] in A2; [discriminate|].
  set (Dx := upd D1 x (D1 t)) in *. set (w := eval (val_of q Dx deps1) e) in *. set (Dt := upd Dx t w) in *.
  destruct (aexecs q L2 (Dt, x :: deps1)) as [[D4 deps4]| |] eqn:E4; cbn in A2; [|discriminate|discriminate]. injection A2 as <-.
  assert (W : w = eval (val_of q D1 deps1) e).
  { unfold w. apply eval_agree. intros y Hy. unfold val_of. destruct (memb y deps1) eqn:M; [|reflexivity]. apply upd_ne. intros ->.
    unfold self_d in S1. rewrite M, (proj2 (memb_in x (evars e)) Hy) in S1. discriminate. }
  assert (Q1 : D4 t = w) by (rewrite (aexecs_unused _ _ _ U2 _ _ _ _ E4); unfold Dt; apply upd_eq).
  assert (Q2 : D2 t = w) by (rewrite (aexecs_unused _ _ _ U1 _ _ _ _ E2), RT; exact Q1).
  cbn [aexec] in E3. destruct (self_d x e deps2); [discriminate|]. injection E3 as <- <-. rewrite upd_ne by exact Nx. rewrite upd_eq. congruence.
Qed.
Print Assumptions C36_one_cycle.
(** v ::= i + 1 where i is an input (10 at cycle 0, 11 at cycle 1...). The variable created for it contains 77 at first. *)
Definition aval (x : var) (r : ares store) : option Z := match r with AOk q => Some (q x) | _ => None end.
Example C36_ex : let rest := fun k s => upd s 1 (Z.of_nat (S k) + 10)%Z in let L := [ ADelay 0 (EB Z.add (EV 1) (EC 1)) 2 ] in
  let q0 := upd (upd (fun _ => 0%Z) 1 10%Z) 2 77%Z in
  map (fun n => aval 0 (arun L rest n q0)) (seq 1 4) = map Some [77; 11; 12; 13]%Z.
Proof. reflexivity. Qed.

(** A delayed assignment on a variable cannot be rejected when the variable was not assigned before in the block, and never crashes. *)
Theorem C36_accepted : forall q x e t D deps, ~ In x deps -> exists s, aexec q (ADelay x e t) (D, deps) = AOk s.
Proof.
  intros q x e t D deps N. cbn [aexec]. unfold self_d. destruct (memb x deps) eqn:M; [apply memb_in in M; contradiction|].
  rewrite andb_false_r. eexists. reflexivity.
Qed.
(** The first value is not an initial value: the variable created for the assignment is never initialized, whatever the algorithm. *)
Definition delayed_nfo : vnfo := {| v_init := Some 0%Z; v_startup := false; v_noinit := true |}.   (* gatherAlwaysAssigned, 3276-3278 *)
Theorem C36_first_refuted : forall w, exists L x q0 q, arun L (fun _ s => s) 1 q0 = AOk q /\ q x = w /\
  power_up false delayed_nfo = None /\ forall a r, reg_rhs a delayed_nfo = Some r -> forall reset run d, reg_edge r reset run d = d.
Proof.
  intros w. exists [ ADelay 0 (EC 5) 1 ], 0, (fun _ => w). eexists. split; [reflexivity|]. split; [reflexivity|]. split; [reflexivity|].
  intros a r H. unfold reg_rhs, init_cond in H. cbn in H. injection H as <-. reflexivity.
Qed.
(** On a part of a variable, the compiler uses a null pointer. *)
Theorem C36_access_refuted : exists L rest q0, arun L rest 1 q0 = ACrash.
Proof. now exists [ APartDelay ], (fun _ s => s), (fun _ => 0%Z). Qed.
Print Assumptions C36_accepted.
Print Assumptions C36_first_refuted.
Print Assumptions C36_access_refuted.
