(** C01, C02, C03, C04, C05, C07, C14: the state machine of an algorithm. *)
From Coq Require Import List Bool Arith ZArith Lia.
Import ListNotations.
From Verif Require Import FsmModel FsmEmit FsmLayout FsmRenum FsmRegion FsmStates FsmArms FsmSource FsmCorrect FsmRun FsmBig FsmSkip.

(** Programs used in the examples; variables are numbers. *)
Definition set (x : var) (n : Z) : stmt := SAssign x (EC n).
Definition inc (x : var) : stmt := SAssign x (EB Z.add (EV x) (EC 1)).
Definition lt (x : var) (n : Z) : expr := EU (fun v => if Z.ltb v n then 1%Z else 0%Z) (EV x).
Definition st (a b : Z) : store := fun x => match x with 0 => a | 1 => b | _ => 0%Z end.

(** * C01 *)
(** The machine of a program without goto, return and wait terminates exactly when the program does, with the same values. Switches whose cases contain
    a cycle boundary must have a default case. *)
Theorem C01_structured_partial : forall fuel unit deps0 p m s s',
  compile fuel unit deps0 p = Some m -> structureds false p = true -> covereds p = true ->
  (exec false p s Normal s' <-> exists n, runs m closed closed n s = Some (s', 0)) /\
  (exec false p s Normal s' -> exists n0, forall n, n0 <= n -> runs m closed closed n s = Some (s', 0)).
Proof. intros. eapply machine_exec; eassumption. Qed.

(** Cycle by cycle, with inputs changing at each cycle, waits and gotos: the machine follows the source text. *)
Theorem C01_cycles_partial : forall fuel unit deps0 p m inp pre,
  compile fuel unit deps0 p = Some m -> Legal deps0 pre p ->
  forall n s0, exists D i c,
    runs m inp pre n s0 = Some (D, i) /\ reach (body unit p) (env inp pre) n (Run (SStep :: body unit p) KStop, s0) (c, D) /\
    (i = 0 -> over (body unit p) c) /\ (i <> 0 -> exists c', tick c c' /\ c <> Run [] KStop).
Proof. intros. eapply follow; eassumption. Qed.

(** A loop with a break, a conditional with a step, a switch. *)
Definition p1 : list stmt :=
  [ SWhile (lt 0 10) [ SIf (lt 2 3) [ inc 2; SStep; inc 3 ]; SIfElse (lt 0 5) [ inc 0 ] [ SBreak ]; SSwitch (EV 0) [ (Some 2%Z, [ inc 4 ]); (Some 3%Z, [ SStep; inc 5 ]); (None, [ set 6 1 ]) ] ]; set 7 1 ].
Definition obs (n : nat) (r : option (store * nat)) : option (list Z * nat) := match r with Some (s, i) => Some (map s (seq 0 n), i) | None => None end.
Example C01_ex : exists m, compile 200 true [] p1 = Some m /\ structureds false p1 = true /\ covereds p1 = true /\ f_max m = 7 /\
  obs 8 (runs m closed closed 60 (st 0 0)) = Some ([5; 0; 3; 3; 1; 1; 1; 1]%Z, 0).
Proof. eexists. split; [vm_compute; reflexivity|]. vm_compute. auto. Qed.
(** Waiting for an instance, a goto, an input changing at every cycle. *)
Definition p1b : list stmt := [ SLabel 0; SJoin (EV 1) [ (2, EV 0) ]; inc 3; SIf (lt 3 2) [ SGoto 0 ]; SStep; inc 4 ].
Example C01_ex_wait : exists m, compile 200 true [9] p1b = Some m /\ Legal [9] (fun _ s => s) p1b /\
  obs 5 (runs m (fun t s => upd (upd s 0 (Z.of_nat t)) 1 (if Nat.even (t / 3) then 0 else 1)%Z) (fun _ s => s) 20 (st 0 0)) = Some ([19; 0; 6; 2; 1]%Z, 0).
Proof.
  eexists. split; [vm_compute; reflexivity|]. split; [|vm_compute; reflexivity]. constructor; try reflexivity.
  intros d x [<-|[]] [<-|[]] [E|[]]. discriminate.
Qed.

Lemma stopped m n s n0 D : runs m closed closed n0 s = Some (D, 0) -> n0 <= n -> runs m closed closed n s = Some (D, 0).
Proof. intros H L. induction L as [|n L IH]; [exact H|]. cbn [runs]. rewrite IH. reflexivity. Qed.

(** Without default, when no case is selected, the machine stays where it is: the source executes the instruction after the switch, the machine never does. *)
Theorem C01_switch_refuted : exists p m s s',
  compile 100 true [] p = Some m /\ structureds false p = true /\ exec false p s Normal s' /\ s' 3 = 1%Z /\
  forall n, runs m closed closed n s = Some (s, f_entry m) /\ s 3 = 0%Z.
Proof.
  exists [ SSwitch (EV 1) [ (Some 0%Z, [ SStep; set 2 1 ]) ]; set 3 1 ]. eexists. exists (st 0 1), (upd (st 0 1) 3 1%Z).
  split; [vm_compute; reflexivity|]. split; [reflexivity|]. split; [|split; [reflexivity|]].
  - econstructor; [constructor; constructor|]. econstructor; [constructor|constructor].
  - intros n. split; [|reflexivity]. induction n as [|n IH]; [reflexivity|]. cbn [runs]. rewrite IH. reflexivity.
Qed.

(** * C02 *)
(** Each cycle of the machine is a walk in the graph of the blocks: from the state selected by the index to the next states, whose numbers are
    written in the index. *)
Theorem C02_cycle_is_walk_partial : forall fuel unit deps0 p m,
  compile fuel unit deps0 p = Some m -> nojumps (gotoss p) p = true -> covereds p = true ->
  exists s g r, gather_body fuel unit p = Some s /\ generate_states fuel s = Some (g, r) /\
    forall Q D i, (forall x, ~ In x deps0 -> D x = Q x) -> In i (map fst (f_arms m)) ->
    exists b D' i', r_sid r b = Some i /\ cycle m Q D i = Some (D', i') /\
      walk g (fun x j => ff_index fuel g r (g_last s) x = Some j) Q b (D, i) (D', i') /\ (i' = 0 \/ In i' (map fst (f_arms m))).
Proof.
  intros fuel unit deps0 p m CP NJ CV. destruct (compile_chain _ _ _ _ _ CP) as [s [g [r CH]]].
  exists s, g, r. split; [exact (h_body _ _ _ _ _ _ _ _ CH)|]. split; [exact (h_gen _ _ _ _ _ _ _ _ CH)|]. intros Q D i A Hi.
  destruct (states_ok _ _ _ _ _ _ (h_body _ _ _ _ _ _ _ _ CH) (h_gen _ _ _ _ _ _ _ _ CH) NJ) as [c [ic O]].
  destruct (machine_states _ _ _ _ _ CP) as [_ [M2 _]].
  destruct (cycle_walk _ _ _ _ _ _ _ _ CH NJ CV c ic Q D i O A (arm_of_some _ _ Hi)) as [b [D' [i' [B1 [B2 [B3 B4]]]]]]; [apply M2 in Hi; lia|].
  exists b, D', i'. split; [exact B1|]. split; [exact B2|]. split; [exact B3|]. destruct B4 as [B4|[c' B4]]; [now left|right].
  apply arm_of_in in B4. apply in_map_iff. eexists. split; [|exact B4]. reflexivity.
Qed.
Example C02_ex : exists m, compile 200 true [] p1 = Some m /\ nojumps (gotoss p1) p1 = true /\ map fst (f_arms m) = [1; 2; 5; 4; 3; 6].
Proof. eexists. split; [vm_compute; reflexivity|]. vm_compute. auto. Qed.

(** Goto into a branch of a conditional: in one cycle the machine goes to the state of the label and executes what follows the conditional. *)
Definition p3 : list stmt := [ SIf (EV 0) [ SGoto 7 ]; SIf (EV 1) [ set 2 1; SLabel 7; set 3 1 ]; set 4 1 ].
Theorem C02_goto_refuted : exists p m s g r Q D' i', compile 100 false [] p = Some m /\ covereds p = true /\
  gather_body 100 false p = Some s /\ generate_states 100 s = Some (g, r) /\ r_sid r 0 = Some (f_entry m) /\
  walk g (fun x j => ff_index 100 g r (g_last s) x = Some j) Q 0 (Q, f_entry m) (D', i') /\ D' 4 = 0%Z /\ i' = 2 /\
  exists D2 i2, cycle m Q Q (f_entry m) = Some (D2, i2) /\ D2 4 = 1%Z /\ i2 = 0.
Proof.
  exists p3. eexists. eexists. eexists. eexists. exists (st 0 1), (upd (st 0 1) 2 1%Z), 2.
  split; [vm_compute; reflexivity|]. split; [reflexivity|]. split; [vm_compute; reflexivity|]. split; [vm_compute; reflexivity|]. split; [reflexivity|].
  split.
  - eapply w_if; [reflexivity|]. apply go_block; [reflexivity|]. cbn.
    repeat (first [eapply w_next; [reflexivity|]; first [apply go_block; [reflexivity|] | apply (go_state _ _ _ _ (upd (st 0 1) 2 1%Z, 1)); reflexivity] | eapply w_if; [reflexivity|]; apply go_block; [reflexivity|]]).
  - split; [reflexivity|]. split; [reflexivity|]. eexists. eexists. split; [vm_compute; reflexivity|]. split; reflexivity.
Qed.
(** Switch without default: the walk goes to what follows the switch, the index is not written. *)
Theorem C02_switch_refuted : exists p m s g r Q D' i', compile 100 false [] p = Some m /\ nojumps (gotoss p) p = true /\
  gather_body 100 false p = Some s /\ generate_states 100 s = Some (g, r) /\ r_sid r 0 = Some (f_entry m) /\
  walk g (fun x j => ff_index 100 g r (g_last s) x = Some j) Q 0 (Q, f_entry m) (D', i') /\ i' = 2 /\
  exists D2, cycle m Q Q (f_entry m) = Some (D2, f_entry m) /\ f_entry m = 1.
Proof.
  exists [ SSwitch (EV 1) [ (Some 0%Z, [ SStep; set 2 1 ]) ]; set 3 1 ]. eexists. eexists. eexists. eexists. exists (st 0 1), (st 0 1), 2.
  split; [vm_compute; reflexivity|]. split; [reflexivity|]. split; [vm_compute; reflexivity|]. split; [vm_compute; reflexivity|]. split; [reflexivity|].
  split; [eapply w_switch; [reflexivity|]; apply (go_state _ _ _ _ (st 0 1, 1)); reflexivity|]. split; [reflexivity|].
  eexists. split; reflexivity.
Qed.

(** * C03 *)
(** Gotos between labels that are not in branches without cycle boundary: the machine follows the source, in which a goto transfers control to the
    instructions after the label. *)
Theorem C03_goto_partial : forall fuel unit deps0 p m, compile fuel unit deps0 p = Some m ->
  nojumps (gotoss p) p = true -> covereds p = true -> waitss p = [] ->
  forall inp n s0, exists D i c,
    runs m inp closed n s0 = Some (D, i) /\ reach (body unit p) inp n (Run (SStep :: body unit p) KStop, s0) (c, D) /\ (i = 0 -> over (body unit p) c).
Proof.
  intros fuel unit deps0 p m CP NJ CV W inp n s0. destruct (follow fuel unit deps0 p m inp closed CP) with (n := n) (s0 := s0) as [D [i [c [H1 [H2 [H3 _]]]]]].
  - constructor; auto. intros d x H. rewrite W in H. destruct H.
  - exists D, i, c. auto.
Qed.
(** A label in a branch that contains a step, reached from outside and from inside. *)
Definition p3b : list stmt := [ SIf (EV 0) [ SStep; inc 2; SLabel 7; inc 3 ]; inc 4; SIf (lt 4 3) [ SGoto 7 ] ].
Example C03_ex : exists m, compile 100 false [] p3b = Some m /\ nojumps (gotoss p3b) p3b = true /\ covereds p3b = true /\ waitss p3b = [] /\
  obs 5 (runs m closed closed 20 (st 1 0)) = Some ([1; 0; 1; 3; 3]%Z, 0) /\ obs 5 (runs m closed closed 20 (st 0 0)) = Some ([0; 0; 0; 2; 3]%Z, 0).
Proof. eexists. split; [vm_compute; reflexivity|]. vm_compute. repeat split. Qed.

(** A label in a branch without step, and a goto that is never executed: the end of the branch is never executed either. *)
Theorem C03_forward_refuted : exists p m s s' n1, compile 100 false [] p = Some m /\ covereds p = true /\
  nxs p n1 (p, KStop, s) = Some ([], KStop, s') /\ s' 3 = 1%Z /\ s 0 = 0%Z /\
  exists D, (forall n, 1 <= n -> runs m closed closed n s = Some (D, 0)) /\ D 3 = 0%Z /\ D 4 = 1%Z.
Proof.
  exists p3. eexists. exists (st 0 1). eexists. exists 8. split; [vm_compute; reflexivity|]. split; [reflexivity|]. split; [vm_compute; reflexivity|].
  split; [reflexivity|]. split; [reflexivity|]. eexists. split; [|split; [|]].
  - intros n L. eapply stopped; [|exact L]. vm_compute. reflexivity.
  - reflexivity.
  - reflexivity.
Qed.
(** The same with a label before the goto. *)
Theorem C03_backward_refuted : exists p m s s' n1, compile 100 false [] p = Some m /\ covereds p = true /\
  nxs p n1 (p, KStop, s) = Some ([], KStop, s') /\ s' 3 = 1%Z /\ s 0 = 0%Z /\
  exists D, (forall n, 1 <= n -> runs m closed closed n s = Some (D, 0)) /\ D 3 = 0%Z /\ D 4 = 1%Z.
Proof.
  exists [ SIf (EV 1) [ set 2 1; SLabel 7; set 3 1 ]; set 4 1; SIf (EV 0) [ SGoto 7 ] ]. eexists. exists (st 0 1). eexists. exists 8.
  split; [vm_compute; reflexivity|]. split; [reflexivity|]. split; [vm_compute; reflexivity|].
  split; [reflexivity|]. split; [reflexivity|]. eexists. split; [|split; [|]].
  - intros n L. eapply stopped; [|exact L]. vm_compute. reflexivity.
  - reflexivity.
  - reflexivity.
Qed.

(** * C04 *)
(** A return in an algorithm has no effect: on every program without goto and wait the machine does what the program does when each return is an
    instruction that does nothing. *)
Theorem C04_return_ignored_partial : forall fuel unit deps0 p m s s',
  compile fuel unit deps0 p = Some m -> structureds true p = true -> covereds p = true ->
  (exec true p s Normal s' <-> exists n, runs m closed closed n s = Some (s', 0)).
Proof. intros. eapply machine_exec; eassumption. Qed.

(** [if(c) { return; } x = 1; ++: y = 1;]: both assignments are executed after the return. *)
Theorem C04_refuted : exists p m s, compile 100 false [] p = Some m /\ covereds p = true /\ s 1 = 1%Z /\
  p = [ SIf (EV 1) [ SReturn ]; set 2 1; SStep; set 3 1 ] /\
  exists D1 D2, runs m closed closed 1 s = Some (D1, 2) /\ D1 2 = 1%Z /\ runs m closed closed 2 s = Some (D2, 0) /\ D2 3 = 1%Z.
Proof.
  eexists. eexists. exists (st 0 1). split; [|split; [|split; [reflexivity|split; [reflexivity|]]]]; [vm_compute; reflexivity|reflexivity|].
  eexists. eexists. split; [vm_compute; reflexivity|]. split; [reflexivity|]. split; [vm_compute; reflexivity|reflexivity].
Qed.

(** * C05 *)
(** The numbering of any graph that starts with a state: exactly the reachable states are numbered, from 1, without hole or repetition. *)
Theorem C05_numbering : forall fuel g r, b_state (g 0) = true -> renumber fuel g = Some r ->
  (forall b, (exists i, r_sid r b = Some i) <-> live fuel g b /\ b_state (g b) = true) /\
  (forall b c i, r_sid r b = Some i -> r_sid r c = Some i -> b = c) /\
  (forall i, (exists b, r_sid r b = Some i) <-> 1 <= i < r_max r).
Proof.
  intros fuel g r S H. pose proof (loop_ren fuel g _ _ S H) as R. split; [|split].
  - intros b. rewrite <- (ren_live _ _ _ R b). split.
    + intros [i Hi]. apply (n_sid _ _ _ R) in Hi. tauto.
    + intros [V Sb]. exact (n_state _ _ _ R b V Sb).
  - exact (n_inj _ _ _ R).
  - intros i. split; [intros [b Hb]; apply (n_sid _ _ _ R) in Hb; tauto|apply (n_sur _ _ _ R)].
Qed.
(** The states of the machine of any program have distinct numbers, between 1 and the number of states; the entry is one of them. *)
Theorem C05_machine : forall fuel unit deps0 p m, compile fuel unit deps0 p = Some m ->
  NoDup (map fst (f_arms m)) /\ (forall i, In i (map fst (f_arms m)) -> 1 <= i < f_max m) /\ In (f_entry m) (map fst (f_arms m)).
Proof. exact machine_states. Qed.
(** And the index never leaves them. *)
Theorem C05_index_partial : forall fuel unit deps0 p m, compile fuel unit deps0 p = Some m -> nojumps (gotoss p) p = true -> covereds p = true ->
  forall inp n s, waitss p = [] -> exists D i, runs m inp closed n s = Some (D, i) /\ (i = 0 \/ In i (map fst (f_arms m))).
Proof.
  intros fuel unit deps0 p m CP NJ CV inp n s W. destruct (C02_cycle_is_walk_partial _ _ _ _ _ CP NJ CV) as [gs [g [r [_ [_ H]]]]].
  induction n as [|n [D [i [R I]]]].
  - exists s, (f_entry m). split; [reflexivity|]. right. apply (machine_states _ _ _ _ _ CP).
  - cbn [runs]. rewrite R. unfold obind, closed. destruct I as [ ->|I]; [exists (inp n D), 0; split; [reflexivity|now left]|].
    destruct (H (inp n D) (inp n D) i (fun _ _ => eq_refl) I) as [b [D' [i' [_ [C [_ I']]]]]]. exists D', i'. split; [exact C|exact I'].
Qed.
(** A graph with an unreachable state (3) and an empty state that is skipped (1). *)
Definition g5 : graph := fun b =>
  match b with
  | 0 => {| b_ins := [IAssign 0 (EC 1)]; b_end := EIf (EV 0) 1 false 1 2 false 2 4; b_state := true; b_noskip := false |}
  | 1 => {| b_ins := []; b_end := ENext (Some 4); b_state := true; b_noskip := false |}
  | 2 => {| b_ins := [IAssign 1 (EC 1)]; b_end := ENext (Some 4); b_state := false; b_noskip := false |}
  | 3 => {| b_ins := [IAssign 2 (EC 1)]; b_end := ENext (Some 4); b_state := true; b_noskip := false |}
  | 4 => {| b_ins := [IAssign 3 (EC 1)]; b_end := ENone; b_state := true; b_noskip := true |}
  | _ => blk0
  end.
Example C05_ex : exists r, renumber 20 g5 = Some r /\ b_state (g5 0) = true /\ map (r_sid r) (seq 0 6) = [Some 1; Some 2; None; None; Some 3; None] /\ r_max r = 4.
Proof. eexists. split; [vm_compute; reflexivity|]. vm_compute. auto. Qed.

(** * C07 *)
(** Skipping from a state: only moves through blocks without instructions, never into an explicit step; the result is a state, and all other states that
    can be skipped are before it. *)
Theorem C07_skip : forall fuel g b y, fast_forward fuel g b = Some y -> b_state (g b) = true ->
  (b_noskip (g b) = true -> y = b) /\ skips g b y /\ b_state (g y) = true /\ (b <> y -> b_noskip (g y) = false) /\
  (b_noskip (g b) = false -> forall z, skips g b z -> b_state (g z) = true -> skips g z y).
Proof.
  intros fuel g b y H S. destruct (b_noskip (g b)) eqn:N.
  - unfold fast_forward in H. rewrite N in H. injection H as <-. repeat split; auto; try constructor; congruence.
  - destruct (fast_forward_skips _ _ _ _ H S N) as [A [B C]]. repeat split; auto; [congruence|]. now apply skips_noskip.
Qed.
(** The states skipped would have spent cycles changing nothing. *)
Theorem C07_skip_idle : forall fuel g b y, fast_forward fuel g b = Some y -> b_state (g b) = true -> idle g b y.
Proof. exact fast_forward_idle. Qed.
(** The search finishes exactly when the moves do. *)
Theorem C07_finishes_partial : forall g b, (forall x, b_end (g x) <> ENext None) -> b_noskip (g b) = false ->
  (ends g b <-> exists fuel y, fast_forward fuel g b = Some y).
Proof. intros. now apply fast_forward_ends. Qed.
(** Three empty blocks, two of them states. *)
Definition g7 : graph := fun b =>
  match b with
  | 0 => {| b_ins := []; b_end := ENext (Some 1); b_state := true; b_noskip := false |}
  | 1 => {| b_ins := []; b_end := ENext (Some 2); b_state := false; b_noskip := false |}
  | 2 => {| b_ins := []; b_end := ENext (Some 3); b_state := true; b_noskip := false |}
  | 3 => {| b_ins := [IAssign 0 (EC 1)]; b_end := ENone; b_state := false; b_noskip := false |}
  | _ => blk0
  end.
Example C07_ex : fast_forward 10 g7 0 = Some 2 /\ b_state (g7 0) = true /\ ends g7 0.
Proof.
  split; [reflexivity|]. split; [reflexivity|]. eapply en_next; [reflexivity..|]. eapply en_next; [reflexivity..|]. eapply en_next; [reflexivity..|]. apply en_stop. discriminate.
Qed.

(** [loop: goto loop;]: the compiler never ends. *)
Theorem C07_finishes_refuted : exists p s, gather_body 100 false p = Some s /\ (forall x, b_end (g_blk s x) <> ENext None) /\
  (forall fuel, fast_forward fuel (g_blk s) 1 = None) /\ b_state (g_blk s 1) = true /\ In (Some 1) (children (b_end (g_blk s 0))) /\
  forall fuel, compile fuel false [] p = None.
Proof.
  exists [ SLabel 0; SGoto 0 ]. eexists. split; [vm_compute; reflexivity|].
  assert (E : forall fuel g, b_ins (g 1) = [] -> b_end (g 1) = ENext (Some 1) -> b_noskip (g 1) = false -> fast_forward fuel g 1 = None).
  { intros fuel g I X N. unfold fast_forward. rewrite N. assert (L : forall f l, ff_loop f g l 1 = None); [|apply L].
    induction f as [|f IH]; intros l; cbn [ff_loop]; [reflexivity|].
    apply empty_ins in I. rewrite I, X, N. cbn [negb]. now destruct (b_state (g 1)). }
  split; [|split; [|split; [|split; [|]]]].
  - intros [|[|[|x]]]; cbn; discriminate.
  - intros fuel. now apply E.
  - reflexivity.
  - now left.
  - intros fuel. unfold compile.
    assert (B : exists s, gather_body fuel false [SLabel 0; SGoto 0] = Some s /\ b_end (g_blk s 0) = ENext (Some 1) /\ b_state (g_blk s 0) = true /\ b_state (g_blk s 1) = true /\
       b_ins (g_blk s 1) = [] /\ b_end (g_blk s 1) = ENext (Some 1) /\ b_noskip (g_blk s 1) = false) by (eexists; split; [reflexivity|]; cbn; auto 10).
    destruct B as [s [-> [B1 [B2 [B3 [B4 [B5 B6]]]]]]]. unfold obind at 1, generate_states.
    assert (R : renumber fuel (g_blk s) = None).
    { unfold renumber. destruct fuel as [|f]; [reflexivity|]. cbn [renumber_loop]. rewrite B2. cbn [r_sid r_max]. rewrite B1. cbn [children push_children]. rewrite B3, E by assumption. reflexivity. }
    now rewrite R.
Qed.

(** * C14 *)
(** Straight line: the emitted assignments, each reading the D or Q side of the registers, give the values obtained by executing the instructions in
    order on the current values. *)
Theorem C14_straight_line_partial : forall (Q : store) l deps code d (D : store) i, write_ins l deps = (code, d) -> (forall x, ~ In x deps -> D x = Q x) ->
  vexecs Q code (D, i) = exec_ins l (D, i) /\ (forall x, ~ In x d -> fst (exec_ins l (D, i)) x = Q x).
Proof. intros Q l deps code d D i H A. destruct (write_ins_ok Q l deps code d D i H A) as [_ [B C]]. split; [exact B|exact C]. Qed.
(** An assignment followed by anything reads the value assigned by the last one. *)
Theorem C14_read_last_partial : forall (Q : store) l deps code d (D : store) i e, write_ins l deps = (code, d) -> (forall x, ~ In x deps -> D x = Q x) ->
  veval Q (fst (vexecs Q code (D, i))) (rewrite d e) = eval (fst (exec_ins l (D, i))) e.
Proof.
  intros Q l deps code d D i e H A. destruct (write_ins_ok Q l deps code d D i H A) as [_ [B C]]. rewrite B. now apply veval_rewrite.
Qed.
(** Whole cycle, through nested conditionals: in a walk expressions read the current values. *)
Theorem C14_cycle_partial : forall fuel unit deps0 p m,
  compile fuel unit deps0 p = Some m -> nojumps (gotoss p) p = true -> covereds p = true ->
  exists s g r, gather_body fuel unit p = Some s /\ generate_states fuel s = Some (g, r) /\
    forall Q D i, (forall x, ~ In x deps0 -> D x = Q x) -> In i (map fst (f_arms m)) ->
    exists b D' i', r_sid r b = Some i /\ cycle m Q D i = Some (D', i') /\
      walk g (fun x j => ff_index fuel g r (g_last s) x = Some j) Q b (D, i) (D', i').
Proof.
  intros fuel unit deps0 p m CP NJ CV. destruct (C02_cycle_is_walk_partial _ _ _ _ _ CP NJ CV) as [s [g [r [A [B C]]]]]. exists s, g, r. split; [exact A|]. split; [exact B|].
  intros Q D i HA Hi. destruct (C Q D i HA Hi) as [b [D' [i' [X1 [X2 [X3 _]]]]]]. exists b, D', i'. auto.
Qed.
(** A variable written in one branch only, then read. *)
Example C14_ex : exists m, compile 100 false [] [ inc 0; SIfElse (lt 0 3) [ SAssign 1 (EV 0) ] [ inc 2 ]; SAssign 3 (EB Z.add (EV 1) (EV 2)) ] = Some m /\
  f_arms m = [ (1, [ VSet 0 (VB Z.add (VQ 0) (VC 1)); VIf (VU (fun v => if Z.ltb v 3 then 1%Z else 0%Z) (VD 0)) [ VSet 1 (VD 0) ] [ VSet 2 (VB Z.add (VQ 2) (VC 1)) ];
                     VSet 3 (VB Z.add (VD 1) (VD 2)); VIdx 0 ]) ].
Proof. eexists. split; [vm_compute; reflexivity|]. reflexivity. Qed.

Print Assumptions C01_structured_partial.
Print Assumptions C01_cycles_partial.
Print Assumptions C01_switch_refuted.
Print Assumptions C02_cycle_is_walk_partial.
Print Assumptions C02_goto_refuted.
Print Assumptions C02_switch_refuted.
Print Assumptions C03_goto_partial.
Print Assumptions C03_forward_refuted.
Print Assumptions C03_backward_refuted.
Print Assumptions C04_return_ignored_partial.
Print Assumptions C04_refuted.
Print Assumptions C05_numbering.
Print Assumptions C05_machine.
Print Assumptions C05_index_partial.
Print Assumptions C07_skip.
Print Assumptions C07_skip_idle.
Print Assumptions C07_finishes_partial.
Print Assumptions C07_finishes_refuted.
Print Assumptions C14_straight_line_partial.
Print Assumptions C14_read_last_partial.
Print Assumptions C14_cycle_partial.
