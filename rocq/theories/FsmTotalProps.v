(** C41: which programs compile. *)
From Coq Require Import List Bool Arith ZArith Lia.
Import ListNotations.
From Verif Require Import FsmModel FsmEmit FsmLayout FsmGather FsmBody FsmRenum FsmRegion FsmJoin FsmStates FsmArms FsmSource FsmCorrect FsmRun FsmBig FsmFuel FsmTotal FsmReject.

(** ** Programs that compile *)
(** Breaks in loops; distinct labels; jumps to labels; no jump into a branch of a conditional without a cycle boundary; each jump just after an
    assignment, a return, a step or a join with results, or to a label just before an instruction that is not a block, a label, a jump or a break. *)
Theorem C41_compiles_partial : forall unit deps0 p,
  brkoks false p = true -> NoDup (labelss p) -> incl (gotoss p) (labelss p) -> nojumps (gotoss p) p = true -> helds (firms p) false p = true ->
  exists F m, forall fuel, F <= fuel -> compile fuel unit deps0 p = Some m.
Proof. intros. apply compile_total. now constructor. Qed.

(** The result does not depend on the fuel. *)
Theorem C41_fuel : forall unit deps0 p f f' m m', compile f unit deps0 p = Some m -> compile f' unit deps0 p = Some m' -> m = m'.
Proof.
  intros unit deps0 p f f' m m' H H'. pose proof (compile_fuel unit deps0 p f (max f f') ltac:(lia) _ H) as A.
  pose proof (compile_fuel unit deps0 p f' (max f f') ltac:(lia) _ H') as B. congruence.
Qed.

(** A loop with a break and a conditional jump out of it, a switch, a join. *)
Definition p41 : list stmt :=
  [ SWhile (EV 0) [ SAssign 1 (EV 2); SIf (EV 1) [ SBreak ]; SIfElse (EV 3) [ SStep; SAssign 4 (EC 1); SGoto 0 ] [ SAssign 4 (EC 2) ] ];
    SSwitch (EV 4) [ (Some 1%Z, [ SStep; SLabel 1; SAssign 5 (EC 3) ]); (None, [ SAssign 5 (EC 4) ]) ];
    SLabel 0; SJoin (EV 6) [ (7, EV 8) ]; SIf (EV 7) [ SGoto 1 ]; SReturn ].
Example C41_compiles_ex : brkoks false p41 = true /\ NoDup (labelss p41) /\ incl (gotoss p41) (labelss p41) /\ nojumps (gotoss p41) p41 = true /\
  helds (firms p41) false p41 = true /\ gotoss p41 = [0; 1] /\ labelss p41 = [1; 0].
Proof.
  repeat split; try (vm_compute; reflexivity).
  - cbn. constructor; [intros [X|[]]; discriminate|]. constructor; [intros []|constructor].
  - cbn. intros x [ <-|[ <-|[]]]; cbn; auto.
Qed.

(** ** Programs that are rejected *)
Theorem C41_rejects : forall fuel unit deps0 p m, compile fuel unit deps0 p = Some m ->
  brkoks false p = true /\ NoDup (labelss p) /\ incl (gotoss p) (labelss p).
Proof. exact compile_checked. Qed.
Example C41_rejects_ex : (exists m, compile 100 false [] p41 = Some m) /\ (forall fuel, compile fuel false [] [ SStep; SBreak ] = None) /\
  (forall fuel, compile fuel false [] [ SLabel 0; SStep; SLabel 0 ] = None) /\ (forall fuel, compile fuel false [] [ SStep; SGoto 0 ] = None).
Proof.
  split; [eexists; vm_compute; reflexivity|]. split; [|split]; intros fuel; match goal with |- ?c = None => destruct c as [m|] eqn:E; [exfalso|reflexivity] end; apply C41_rejects in E.
  - destruct E as [E _]. discriminate.
  - destruct E as [_ [E _]]. inversion E as [|? ? X]; subst. apply X. now left.
  - destruct E as [_ [_ E]]. exact (E 0 (or_introl eq_refl)).
Qed.

(** ** Programs without jumps *)
Lemma firms_none : forall l F pv, gotoss l = [] -> helds F pv l = true.
Proof.
  assert (A : forall st F, gotos st = [] -> held F st = true).
  { assert (L : forall l, Forall (fun st => forall F, gotos st = [] -> held F st = true) l -> forall F pv, gotoss l = [] -> helds F pv l = true).
    { induction 1 as [|x r Hx Hr IH]; intros F pv G; [reflexivity|]. cbn [gotoss flat_map] in G. apply app_eq_nil in G. destruct G as [G1 G2].
      cbn [helds]. fold (helds F). rewrite (IH F (slow x) G2), andb_true_r. destruct x; try (now apply Hx). discriminate. }
    induction st using stmt_ind'; intros F G; try reflexivity.
    - exact (L l H F false G).
    - exact (L l H F false G).
    - cbn [gotos] in G. apply app_eq_nil in G. destruct G as [G1 G2]. cbn [held]. apply andb_true_iff. split; [exact (L l1 H F false G1)|exact (L l2 H0 F false G2)].
    - cbn [gotos] in G. cbn [held]. induction H as [|[v l] cs Hl Hc IH]; [reflexivity|]. cbn [flat_map snd] in G. apply app_eq_nil in G. destruct G as [G1 G2].
      cbn [forallb snd]. apply andb_true_iff. split; [exact (L l Hl F false G1)|exact (IH G2)].
    - exact (L l H F false G).
    - discriminate. }
  induction l as [|x r IH]; intros F pv G; [reflexivity|]. cbn [gotoss flat_map] in G. apply app_eq_nil in G. destruct G as [G1 G2].
  cbn [helds]. fold (helds F). rewrite (IH F (slow x) G2), andb_true_r. destruct x; try (now apply A). discriminate.
Qed.
(** They compile exactly when breaks are in loops and labels are distinct. *)
Theorem C41_structured : forall unit deps0 p, gotoss p = [] ->
  ((brkoks false p = true /\ NoDup (labelss p)) <-> exists F m, forall fuel, F <= fuel -> compile fuel unit deps0 p = Some m).
Proof.
  intros unit deps0 p G. split.
  - intros [A B]. apply C41_compiles_partial; [exact A|exact B|rewrite G; intros x []|rewrite G; apply nojumps_nil|now apply firms_none].
  - intros [F [m H]]. specialize (H F (le_n F)). apply C41_rejects in H. tauto.
Qed.
Example C41_structured_ex : let p := [ SWhile (EC 1) [ SWhile (EV 0) [ SIf (EV 1) [ SBreak ] ]; SLabel 0; SStep ] ] in
  gotoss p = [] /\ brkoks false p = true /\ NoDup (labelss p).
Proof. cbn. split; [reflexivity|]. split; [reflexivity|]. constructor; [intros []|constructor]. Qed.

(** ** Compilation then execution, without assuming that the program compiles *)
(** Programs without goto, return and wait, with the switches of C01. *)
Theorem C41_runs_partial : forall unit deps0 p, brkoks false p = true -> NoDup (labelss p) -> structureds false p = true -> covereds p = true ->
  exists F m, (forall fuel, F <= fuel -> compile fuel unit deps0 p = Some m) /\
    forall s s', exec false p s Normal s' <-> exists n, runs m closed closed n s = Some (s', 0).
Proof.
  intros unit deps0 p B N St C. destruct (structureds_gotos false p St) as [G _].
  destruct (proj1 (C41_structured unit deps0 p G) (conj B N)) as [F [m H]]. exists F, m. split; [exact H|]. intros s s'.
  exact (proj1 (machine_exec false F unit deps0 p m s s' (H F (le_n F)) St C)).
Qed.
Example C41_runs_ex : let p := [ SWhile (EV 0) [ SIf (EV 1) [ SBreak ]; SAssign 1 (EC 1); SStep ]; SAssign 2 (EV 1) ] in
  brkoks false p = true /\ NoDup (labelss p) /\ structureds false p = true /\ covereds p = true.
Proof. cbn. split; [reflexivity|]. split; [constructor|]. split; reflexivity. Qed.

(** ** Correct programs that do not compile *)
Definition stuck (unit : bool) (p : list stmt) : bool :=
  match gather_body 60 unit p with
  | Some s => match renumber 60 (g_blk s) with
              | Some r => match prevent r (unreachable (g_blk s) r) (seq 0 (g_next s)) (g_blk s) false with None => true | Some _ => false end
              | None => false
              end
  | None => false
  end.
Lemma prevent_none unit deps0 p : stuck unit p = true -> forall fuel, compile fuel unit deps0 p = None.
Proof.
  intros K fuel. unfold stuck in K. destruct (gather_body 60 unit p) as [s|] eqn:G; [|discriminate]. destruct (renumber 60 (g_blk s)) as [r1|] eqn:R; [|discriminate].
  destruct (prevent _ _ _ _ _) as [x|] eqn:V; [discriminate|]. clear K.
  destruct (compile fuel unit deps0 p) as [m|] eqn:E; [exfalso|reflexivity].
  apply (compile_fuel unit deps0 p fuel (max fuel 60) ltac:(lia)) in E. unfold compile in E.
  rewrite (gather_body_fuel 60 (max fuel 60) ltac:(lia) unit p _ G) in E. cbn [obind] in E. unfold generate_states in E.
  rewrite (renumber_fuel (g_blk s) 60 (max fuel 60) ltac:(lia) _ R) in E. cbn [obind] in E. rewrite V in E. discriminate.
Qed.
(** [if (v0) { l: } while (v1) { ++: v2 = 1; } v3 = 1; goto l;]: a jump into a branch. The branch is said to be stateless before the jump makes its
    label a state; the state is then skipped up to the loop, and the end of the branch belongs to no state: an assertion fails. *)
Theorem C41_branch_refuted : exists p, brkoks false p = true /\ NoDup (labelss p) /\ incl (gotoss p) (labelss p) /\ helds (firms p) false p = true /\
  forall unit fuel deps0, compile fuel unit deps0 p = None.
Proof.
  exists [ SIf (EV 0) [ SLabel 0 ]; SWhile (EV 1) [ SStep; SAssign 2 (EC 1) ]; SAssign 3 (EC 1); SGoto 0 ]. split; [reflexivity|].
  split; [constructor; [intros []|constructor]|]. split; [cbn; intros x Hx; exact Hx|]. split; [reflexivity|]. intros unit fuel deps0. revert fuel.
  destruct unit; apply prevent_none; vm_compute; reflexivity.
Qed.
(** [l: goto l;]: the search of the next state that is not empty does not end. *)
Theorem C41_empty_refuted : exists p, brkoks false p = true /\ NoDup (labelss p) /\ incl (gotoss p) (labelss p) /\ nojumps (gotoss p) p = true /\
  forall fuel, compile fuel false [] p = None.
Proof.
  exists [ SLabel 0; SGoto 0 ]. split; [reflexivity|]. split; [constructor; [intros []|constructor]|]. split; [cbn; intros x Hx; exact Hx|]. split; [reflexivity|].
  assert (E : forall fuel g, b_ins (g 1) = [] -> b_end (g 1) = ENext (Some 1) -> b_noskip (g 1) = false -> fast_forward fuel g 1 = None).
  { intros fuel g I X N. unfold fast_forward. rewrite N. assert (L : forall f l, ff_loop f g l 1 = None); [|apply L].
    induction f as [|f IH]; intros l; cbn [ff_loop]; [reflexivity|]. unfold block_empty. rewrite I, X, N. cbn [negb]. now destruct (b_state (g 1)). }
  intros fuel. unfold compile.
  assert (B : exists s, gather_body fuel false [SLabel 0; SGoto 0] = Some s /\ b_end (g_blk s 0) = ENext (Some 1) /\ b_state (g_blk s 0) = true /\ b_state (g_blk s 1) = true /\
    b_ins (g_blk s 1) = [] /\ b_end (g_blk s 1) = ENext (Some 1) /\ b_noskip (g_blk s 1) = false) by (eexists; split; [reflexivity|]; cbn; auto 10).
  destruct B as [s [-> [B1 [B2 [B3 [B4 [B5 B6]]]]]]]. unfold obind at 1, generate_states.
  assert (R : renumber fuel (g_blk s) = None).
  { unfold renumber. destruct fuel as [|f]; [reflexivity|]. cbn [renumber_loop]. rewrite B2. cbn [r_sid r_max]. rewrite B1. cbn [children push_children]. rewrite B3, E by assumption. reflexivity. }
  now rewrite R.
Qed.

Print Assumptions C41_compiles_partial.
Print Assumptions C41_fuel.
Print Assumptions C41_rejects.
Print Assumptions C41_structured.
Print Assumptions C41_runs_partial.
Print Assumptions C41_branch_refuted.
Print Assumptions C41_empty_refuted.
