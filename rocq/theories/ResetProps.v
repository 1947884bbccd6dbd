(** Clock, reset, run and done in a hierarchy of units. *)
From Coq Require Import String List Bool ZArith Lia.
Import ListNotations.
From Verif Require Import RegModel ResetModel.
Open Scope string_scope.

(** * Concrete hierarchy: main (an algorithm started by itself) has an instance [a] of a unit with an always block and a register,
    which has an instance [t] of a callable algorithm and an instance [c] of a unit without registers. *)
Definition idle_block := {| k_instr := false; k_end := false; k_id := 0; k_state := true |}.
Definition code_block := {| k_instr := true; k_end := true; k_id := 0; k_state := true |}.
Definition plain_unit (fsm auto : bool) (vars outs : list reg) : udesc :=
  {| u_front := if fsm then code_block else idle_block; u_more := []; u_auto := auto; u_ins := ["x"]; u_vars := vars; u_outs := outs;
     u_reset := "reset"; u_clock := "clock"; u_pipes := []; u_checks := false; u_reads := ["x"]; u_isdone := [] |}.
Definition counter : reg := {| g_name := "n"; g_ff := true; g_nfo := {| v_init := Some 5%Z; v_startup := false; v_noinit := false |} |}.
Definition comb_out : reg := {| g_name := "o"; g_ff := false; g_nfo := {| v_init := None; v_startup := false; v_noinit := true |} |}.
Definition plain_inst (n : string) : idesc := {| i_name := n; i_reset := None; i_clock := None; i_ins := [("x", "n")]; i_outs := [] |}.
Definition ex_comb : bp := Unit (plain_unit false false [] [comb_out]) [].
Definition ex_task : bp := Unit (plain_unit true false [counter] []) [].
Definition ex_mid : bp := Unit (plain_unit false false [counter] [comb_out]) [(plain_inst "t", ex_task); (plain_inst "c", ex_comb)].
Definition ex_main : bp := Unit (plain_unit true true [counter] []) [(plain_inst "a", ex_mid)].

(** * Pins and ports *)
(** An instance of a unit connects exactly the ports of the module of the unit which are not data, each once. *)
Theorem C46_pins : forall u subs i v vs,
  (forall p, In p (map fst (connects u subs i (Unit v vs))) <-> In p (unit_ports false v vs))
  /\ NoDup (map fst (connects u subs i (Unit v vs))) /\ NoDup (unit_ports false v vs).
Proof.
  intros. unfold connects, unit_ports. destruct (requires_reset (Unit v vs)), (no_fsm v), (not_callable v);
    cbn -[requires_reset]; (split; [intro p; tauto | split; repeat (constructor; [cbn; intuition discriminate |]); constructor]).
Qed.
Example C46_pins_ex :
  map fst (connects (plain_unit true true [counter] []) [(plain_inst "a", ex_task)] (plain_inst "a") ex_task) = ["out_done"; "in_run"; "reset"; "clock"; "out_clock"]
  /\ map fst (connects (plain_unit true true [counter] []) [(plain_inst "a", ex_comb)] (plain_inst "a") ex_comb) = ["clock"; "out_clock"].
Proof. split; reflexivity. Qed.

(** A module can be run exactly when it is an algorithm which does not start by itself, and tells when it is done exactly when it has a state machine. *)
Theorem C46_run : forall u subs,
  (In "in_run" (unit_ports false u subs) <-> no_fsm u = false /\ u_auto u = false)
  /\ (In "out_done" (unit_ports false u subs) <-> no_fsm u = false).
Proof.
  intros. unfold unit_ports, not_callable. destruct (requires_reset (Unit u subs)), (u_auto u), (no_fsm u); cbn; intuition congruence.
Qed.
Example C46_run_ex : In "in_run" (unit_ports false (plain_unit true false [] []) []) /\ ~ In "in_run" (unit_ports false (plain_unit true true [] []) []).
Proof. split; [apply C46_run|rewrite (proj1 (C46_run _ _))]; cbn; intuition congruence. Qed.

(** An instance of a RISC-V processor leaves two ports of its module open: in_run, and out_done. *)
Theorem C46_riscv : forall u subs i o p,
  In p riscv_ports -> (In p (map fst (connects u subs i (Riscv o))) <-> p <> "in_run" /\ p <> "out_done").
Proof.
  intros u subs i o p H. cbn in H |- *. decompose [or] H; subst; cbn; intuition congruence.
Qed.
Example C46_riscv_ex : In "reset" riscv_ports /\ In "in_run" riscv_ports.
Proof. cbn. tauto. Qed.

(** * When is there a reset *)
(** [c] is [b] or the blueprint of an instance somewhere below. *)
Inductive within : bp -> bp -> Prop :=
| within_self : forall b, within b b
| within_sub : forall c u subs i b, In (i, b) subs -> within c b -> within c (Unit u subs).
(** A blueprint needs a reset by itself: a unit with a state machine, or with a register having an initial value, or a processor. *)
Definition needs (b : bp) : Prop :=
  match b with
  | Unit u _ => no_fsm u = false \/ exists g, In g (u_vars u ++ u_outs u) /\ g_ff g = true /\ v_noinit (g_nfo g) = false
  | Import _ => False
  | Riscv _ => True
  end.
Lemma requires_unit : forall u subs, requires_reset (Unit u subs) = true <->
  needs (Unit u subs) \/ exists i b, In (i, b) subs /\ requires_reset b = true.
Proof.
  intros. cbn [requires_reset needs]. rewrite !orb_true_iff, !existsb_exists, negb_true_iff. unfold wants_reset. split.
  - intros [[[H|[g [I H]]]|[g [I H]]]|[[i b] [I H]]].
    + left. now left.
    + apply andb_true_iff in H as [F N]. apply negb_true_iff in N. left; right. exists g. rewrite in_app_iff. tauto.
    + apply andb_true_iff in H as [F N]. apply negb_true_iff in N. left; right. exists g. rewrite in_app_iff. tauto.
    + right. exists i, b. tauto.
  - intros [[H|[g [I [F N]]]]|[i [b [I H]]]].
    + tauto.
    + apply in_app_iff in I as [I|I]; [left; left; right|left; right]; exists g; rewrite F, N; auto.
    + right. exists (i, b). auto.
Qed.
Fixpoint bp_ind' (P : bp -> Prop) (HU : forall u subs, Forall (fun s => P (snd s)) subs -> P (Unit u subs))
  (HI : forall o, P (Import o)) (HR : forall o, P (Riscv o)) (b : bp) : P b :=
  match b with
  | Unit u subs => HU u subs ((fix go l : Forall (fun s => P (snd s)) l :=
      match l with [] => Forall_nil _ | s :: r => Forall_cons s (bp_ind' P HU HI HR (snd s)) (go r) end) subs)
  | Import o => HI o
  | Riscv o => HR o
  end.
(** A module has a port reset exactly when something in it needs it. *)
Theorem C46_required : forall b, requires_reset b = true <-> exists c, within c b /\ needs c.
Proof.
  intro b; split.
  - induction b as [u subs IH|o|o] using bp_ind'; intro H.
    + apply requires_unit in H as [H|[i [b [I H]]]].
      * exists (Unit u subs). split; [constructor|assumption].
      * rewrite Forall_forall in IH. destruct (IH (i, b) I H) as [c [W N]]. exists c. split; [econstructor; eassumption|assumption].
    + discriminate H.
    + exists (Riscv o). split; [constructor|exact I].
  - intros [c [W N]]. induction W as [b|c u subs i b I W IH].
    + destruct b; [apply requires_unit; now left| destruct N | reflexivity].
    + apply requires_unit. right. exists i, b. split; [assumption|]. now apply IH.
Qed.
Example C46_required_ex : within ex_task ex_main /\ needs ex_task /\ requires_reset ex_main = true /\ requires_reset ex_comb = false.
Proof.
  split; [|split; [|split; reflexivity]].
  - eapply within_sub; [left; reflexivity|]. eapply within_sub; [left; reflexivity|constructor].
  - left. reflexivity.
Qed.

(** * Signals used by a module are declared *)
Lemma in_when : forall A (x : A) c l, In x (when c l) <-> c = true /\ In x l.
Proof. intros. destruct c; cbn; intuition discriminate. Qed.
Lemma ports_reset : forall top u subs, In "reset" (unit_ports top u subs) <-> top = true \/ requires_reset (Unit u subs) = true.
Proof.
  intros. unfold unit_ports. destruct top, (requires_reset (Unit u subs)), (not_callable u), (no_fsm u); cbn; intuition congruence.
Qed.
Lemma bound_wire : forall subs x w, bound subs x = Some w -> exists i b o, In (i, b) subs /\ In (o, x) (i_outs i) /\ w = wire_of i o.
Proof.
  induction subs as [|[i b] r IH]; cbn [bound]; intros x w H; [discriminate|].
  destruct (find _ _) as [[o y]|] eqn:F.
  - apply find_some in F as [I E]. apply String.eqb_eq in E. cbn in E. subst y. injection H as <-.
    exists i, b, o. split; [now left|]. split; [assumption|reflexivity].
  - apply IH in H as [j [c [o [I R]]]]. exists j, c, o. split; [now right|assumption].
Qed.
Lemma bound_declared : forall top u subs x w, binds_outputs subs -> bound subs x = Some w -> In w (declared top u subs).
Proof.
  intros top u subs x w B H. apply bound_wire in H as [i [b [o [I [O ->]]]]]. unfold declared. rewrite !in_app_iff. do 3 right.
  apply in_flat_map. exists (i, b). split; [assumption|]. unfold decl_inst. apply in_app_iff. left. apply in_map. eapply B; eassumption.
Qed.
Lemma clock_declared : forall top u subs, In "clock" (declared top u subs).
Proof. intros. unfold declared, unit_ports. rewrite !in_app_iff. right. left. do 3 right. right. now left. Qed.
Lemma rewrite_declared : forall top u subs x y, binds_outputs subs -> rewrite u subs x = Some y ->
  y = "reset" \/ In y (declared top u subs).
Proof.
  intros top u subs x y B H. unfold rewrite in H.
  destruct (String.eqb_spec x "reset") as [->|NR]; cbn [orb] in H; [injection H as <-; now left|].
  right. destruct (String.eqb_spec x "clock") as [->|NC]; [injection H as <-; apply clock_declared|].
  destruct (String.eqb x (u_reset u)); [eapply bound_declared; eassumption|].
  destruct (String.eqb x (u_clock u)); [eapply bound_declared; eassumption|].
  destruct (mem x (u_ins u)) eqn:M.
  - injection H as <-. unfold mem in M. apply existsb_exists in M as [z [I E]]. apply String.eqb_eq in E. subst z.
    unfold declared. rewrite !in_app_iff. left. apply in_map_iff. now exists x.
  - destruct (bound subs x) eqn:E; [injection H as <-; eapply bound_declared; eassumption|].
    destruct (find _ _) as [g|] eqn:F; cbn in H; [|discriminate]. injection H as <-. apply find_some in F as [I _].
    unfold declared. rewrite !in_app_iff. right. right. left. apply in_flat_map. exists g. rewrite in_app_iff in *. split; [assumption|].
    unfold decl_reg, read_reg. destruct (g_ff g); cbn; tauto.
Qed.
Lemma rewrite_reset : forall u subs x, rewrite u subs x = Some "reset" -> x = "reset".
Proof.
  intros u subs x H. unfold rewrite in H.
  destruct (String.eqb_spec x "reset") as [E|NR]; [exact E|]. cbn [orb] in H.
  destruct (String.eqb_spec x "clock") as [E|NC]; [rewrite E in H; discriminate|].
  assert (W : bound subs x <> Some "reset") by (intro E; apply bound_wire in E as [i [b [o [_ [_ E]]]]]; discriminate E).
  destruct (String.eqb x (u_reset u)); [now elim W|]. destruct (String.eqb x (u_clock u)); [now elim W|].
  destruct (mem x (u_ins u)); [discriminate|]. destruct (bound subs x); [now elim W|].
  destruct (find _ _) as [g|]; cbn in H; [|discriminate]. unfold read_reg in H. destruct (g_ff g); discriminate.
Qed.
Lemma run_port : forall top u subs, not_callable u = false -> In "in_run" (declared top u subs).
Proof. intros top u subs H. unfold declared, unit_ports. rewrite !in_app_iff, !in_when, H. right. left. left. cbn. tauto. Qed.
Lemma done_port : forall top u subs, no_fsm u = false -> In "out_done" (declared top u subs).
Proof. intros top u subs H. unfold declared, unit_ports. rewrite !in_app_iff, !in_when, H. right. left. right. left. cbn. tauto. Qed.
Lemma in_unit : forall u subs i b, In (i, b) subs -> requires_reset b = true -> requires_reset (Unit u subs) = true.
Proof. intros. apply requires_unit. right. eauto. Qed.
Lemma mux_wants : forall a v c i, reg_rhs a v = Some (Mux c i) -> v_noinit v = false.
Proof.
  intros a v c i H. unfold reg_rhs, init_cond in H. destruct (v_noinit v); [|reflexivity].
  destruct (v_init v); [|discriminate]. rewrite orb_true_r in H. discriminate.
Qed.
Lemma mux_run : forall u v i, reg_rhs (alg_of u) v = Some (Mux OnResetOrNotRun i) -> not_callable u = false.
Proof.
  intros u v i H. unfold reg_rhs, init_cond, callable, alg_of in H. cbn in H.
  destruct (v_init v); [|destruct (v_noinit v); discriminate]. destruct (v_startup v || v_noinit v); [discriminate|].
  unfold not_callable. destruct (u_auto u), (no_fsm u); cbn in H; try discriminate; reflexivity.
Qed.

(** A use of the name reset in the text of a module: it is needed, or it is in an expression, in the binding of an input, in a check, or in the
    text for formal verification. *)
Definition asks (formal : bool) (u : udesc) (subs : list (idesc * bp)) : Prop :=
  formal = true \/ (u_checks u = true /\ u_reset u = "reset") \/ In "reset" (u_reads u)
  \/ exists i b p, In (i, b) subs /\ In (p, "reset") (i_ins i).
Lemma reset_text_some : forall u subs x, reset_text u subs = Some x -> x = "reset" \/ bound subs (u_reset u) = Some x.
Proof. intros u subs x H. unfold reset_text in H. destruct (String.eqb _ _); [left; now injection H|now right]. Qed.
Lemma edges_use : forall top u subs x, binds_outputs subs -> In (Some x) (uses_edges u subs) ->
  In x (declared top u subs) \/ (x = "reset" /\ requires_reset (Unit u subs) = true).
Proof.
  intros top u subs x B H. unfold uses_edges in H. destruct H as [H|H].
  - left. unfold clock_text in H. destruct (String.eqb _ _); [injection H as <-; apply clock_declared|eapply bound_declared; eassumption].
  - assert (R : reset_text u subs = Some x -> requires_reset (Unit u subs) = true ->
        In x (declared top u subs) \/ x = "reset" /\ requires_reset (Unit u subs) = true).
    { intros E Q. apply reset_text_some in E as [->|E]; [right; tauto|left; eapply bound_declared; eassumption]. }
    apply in_app_iff in H as [H|H].
    + apply in_flat_map in H as [g [I H]]. unfold uses_reg in H. destruct (g_ff g) eqn:F; [|destruct H].
      destruct (reg_rhs _ _) as [[|[| |] i]|] eqn:E; try destruct H.
      * apply R; [assumption|]. apply requires_unit. left. right. exists g. apply mux_wants in E. tauto.
      * destruct H.
      * apply R; [assumption|]. apply requires_unit. left. right. exists g. apply mux_wants in E. tauto.
      * destruct H as [H|[]]. injection H as <-. left. apply run_port. eapply mux_run; eassumption.
    + apply in_when in H as [N H]. apply negb_true_iff in N. assert (Q : requires_reset (Unit u subs) = true) by (apply requires_unit; left; now left).
      destruct H as [H|H]; [now apply R|]. apply in_app_iff in H as [H|H].
      * apply in_when in H as [A [H|[]]]. injection H as <-. left. apply run_port. unfold not_callable. apply negb_true_iff in A. now rewrite A.
      * apply in_map_iff in H as [? [H _]]. now apply R.
Qed.
Lemma insts_use : forall top u subs x, binds_outputs subs -> In (Some x) (uses_insts u subs) ->
  In x (declared top u subs) \/ (x = "reset" /\ (requires_reset (Unit u subs) = true \/ exists i b p, In (i, b) subs /\ In (p, "reset") (i_ins i)))
  \/ (x = "reset" /\ exists i b, In (i, b) subs /\ requires_clock b = true /\ inst_clock u i = "reset").
Proof.
  intros top u subs x B H. unfold uses_insts in H. apply in_flat_map in H as [[i b] [I H]]. cbn [fst snd] in H. apply in_app_iff in H as [H|H].
  - apply in_map_iff in H as [[p y] [E J]]. cbn in E. destruct (rewrite_declared top _ _ _ _ B E) as [->|D]; [|now left].
    apply rewrite_reset in E. subst y. right. left. split; [reflexivity|]. right. now exists i, b, p.
  - apply in_map_iff in H as [[p y] [E J]]. cbn in E. subst y. apply filter_In in J as [J NP]. unfold connects in J.
    rewrite !in_app_iff in J. destruct J as [J|[J|J]].
    + left. unfold declared. rewrite !in_app_iff. do 3 right. apply in_flat_map. exists (i, b). split; [assumption|].
      unfold decl_inst. apply in_app_iff. right. destruct b as [v vs|o|o]; try destruct J. cbn [fst snd]. rewrite !in_app_iff, !in_when in *.
      destruct J as [[C [J|[]]]|[C [J|[]]]]; injection J as <- <-; cbn; tauto.
    + apply in_when in J as [C [J|[]]]. injection J as <- E. destruct (rewrite_declared top _ _ _ _ B E) as [->|D]; [|now left].
      right. left. split; [reflexivity|]. left. eapply in_unit; eassumption.
    + apply in_when in J as [C [J|[J|[]]]]; injection J as <- E.
      * destruct (rewrite_declared top _ _ _ _ B E) as [->|D]; [|now left]. right. right. split; [reflexivity|].
        exists i, b. split; [assumption|]. split; [assumption|]. now apply rewrite_reset in E.
      * discriminate NP.
Qed.

(** Every signal used in the module of a unit is declared in it, when:
    no instance is clocked by reset, isdone is used on instances having a state machine, there is no check if the reset has another name,
    and reset is only asked for where there is one: in the topmost unit, or in units which need a reset or contain one which does. *)
Theorem C46_declared_partial : forall formal top u subs,
  binds_outputs subs ->
  (forall i b, In (i, b) subs -> inst_clock u i <> "reset") ->
  (forall n i v vs, In n (u_isdone u) -> sub_at subs n = Some (i, Unit v vs) -> no_fsm v = false) ->
  (u_checks u = true -> u_reset u = "reset") ->
  (asks formal u subs -> top = true \/ requires_reset (Unit u subs) = true) ->
  forall x, In (Some x) (uses formal u subs) -> In x (declared top u subs).
Proof.
  intros formal top u subs B CK ID CH AS x H.
  assert (R : requires_reset (Unit u subs) = true \/ asks formal u subs -> In "reset" (declared top u subs)).
  { intro Q. unfold declared. rewrite !in_app_iff. right. left. apply ports_reset. tauto. }
  unfold uses in H. rewrite !in_app_iff in H. destruct H as [H|[H|[H|[H|H]]]].
  - destruct (edges_use top _ _ _ B H) as [D|[-> Q]]; [assumption|apply R; now left].
  - unfold uses_checks in H. apply in_when in H as [C [H|[]]]. injection H as <-. rewrite (CH C). apply R. right. right. left. auto.
  - apply in_when in H as [-> [H|H]]; [injection H as <-; apply R; right; now left|].
    apply in_when in H as [N H]. apply negb_true_iff in N. rewrite in_app_iff, in_when in H.
    destruct H as [[C [H|[]]]|[H|[]]]; injection H as <-; [apply run_port; now apply negb_true_iff in C|now apply done_port].
  - unfold uses_code in H. apply in_app_iff in H as [H|H]; apply in_map_iff in H as [y [E I]].
    + destruct (rewrite_declared top _ _ _ _ B E) as [->|D]; [|assumption]. apply rewrite_reset in E. subst y.
      apply R. right. right. right. now left.
    + unfold isdone_text in E. pose proof (ID y) as Q. unfold sub_at in Q. destruct (find _ subs) as [[i b]|] eqn:F; [|discriminate].
      destruct b as [v vs|o|o]; try discriminate. injection E as <-. specialize (Q i v vs I eq_refl).
      unfold declared. rewrite !in_app_iff. do 3 right. apply in_flat_map. exists (i, Unit v vs). split; [now apply find_some in F|].
      unfold decl_inst. cbn [fst snd]. rewrite !in_app_iff, !in_when, Q. right. left. cbn. tauto.
  - destruct (insts_use top _ _ _ B H) as [D|[[-> [Q|Q]]|[-> [i [b [I [C E]]]]]]]; [assumption|apply R; now left| |].
    + apply R. right. right. right. now right.
    + now elim (CK i b I).
Qed.
Example C46_declared_ex : uses true (plain_unit true true [counter] []) [(plain_inst "a", ex_mid)] <> []
  /\ (forall x, In (Some x) (uses true (plain_unit true true [counter] []) [(plain_inst "a", ex_mid)]) ->
      In x (declared true (plain_unit true true [counter] []) [(plain_inst "a", ex_mid)])).
Proof.
  split; [discriminate|]. apply C46_declared_partial; cbn.
  - intros i b o x [E|[]]. injection E as <- <-. intros [].
  - intros i b [E|[]]. injection E as <- <-. discriminate.
  - intros n i v vs [].
  - discriminate.
  - tauto.
Qed.

(** The name reset is used in a module which has no such port exactly when the unit asks for it while nothing in it needs it. *)
Theorem C46_missing : forall formal top u subs,
  binds_outputs subs ->
  (forall i b, In (i, b) subs -> inst_clock u i <> "reset") ->
  (In (Some "reset") (uses formal u subs) /\ ~ In "reset" (declared top u subs)
   <-> asks formal u subs /\ top = false /\ requires_reset (Unit u subs) = false).
Proof.
  intros formal top u subs B CK.
  assert (DP : In "reset" (declared top u subs) <-> top = true \/ requires_reset (Unit u subs) = true).
  { rewrite <- ports_reset. unfold declared. rewrite !in_app_iff. split; [|tauto]. intros [H|[H|[H|H]]]; [|assumption| |].
    - apply in_map_iff in H as [y [E _]]. discriminate.
    - apply in_flat_map in H as [g [_ H]]. unfold decl_reg in H. destruct (g_ff g); cbn in H; decompose [or] H; try discriminate; contradiction.
    - apply in_flat_map in H as [[i b] [_ H]]. unfold decl_inst in H. cbn [fst snd] in H. apply in_app_iff in H as [H|H].
      + apply in_map_iff in H as [y [E _]]. discriminate.
      + destruct b as [v vs|o|o]; try destruct H. rewrite in_app_iff, !in_when in H.
        destruct H as [[_ [H|[]]]|[_ [H|[]]]]; discriminate. }
  rewrite DP. assert (NP : ~ (top = true \/ requires_reset (Unit u subs) = true) <-> top = false /\ requires_reset (Unit u subs) = false).
  { destruct top, (requires_reset (Unit u subs)); intuition congruence. }
  rewrite NP. split; intros [H [T Q]]; (split; [|split; assumption]).
  - unfold uses in H. rewrite !in_app_iff in H. destruct H as [H|[H|[H|[H|H]]]].
    + destruct (edges_use top _ _ _ B H) as [D|[_ E]]; [apply DP in D|]; destruct top; intuition congruence.
    + unfold uses_checks in H. apply in_when in H as [C [H|[]]]. injection H as E. right. left. auto.
    + apply in_when in H as [-> _]. now left.
    + unfold uses_code in H. apply in_app_iff in H as [H|H]; apply in_map_iff in H as [y [E I]].
      * apply rewrite_reset in E. subst y. right. right. now left.
      * unfold isdone_text in E. destruct (find _ subs) as [[i b]|]; [|discriminate]. destruct b; discriminate.
    + destruct (insts_use top _ _ _ B H) as [D|[[_ [E|E]]|[_ [i [b [I [C E]]]]]]].
      * apply DP in D. intuition congruence.
      * congruence.
      * right. right. now right.
      * now elim (CK i b I).
  - unfold uses. rewrite !in_app_iff. destruct H as [->|[[C E]|[I|[i [b [p [I J]]]]]]].
    + right. right. left. now left.
    + right. left. unfold uses_checks. rewrite C, E. now left.
    + do 3 right. left. unfold uses_code. apply in_app_iff. left. apply in_map_iff. exists "reset". split; [reflexivity|assumption].
    + do 4 right. unfold uses_insts. apply in_flat_map. exists (i, b). split; [assumption|]. cbn [fst snd]. apply in_app_iff. left.
      apply in_map_iff. exists (p, "reset"). split; [reflexivity|assumption].
Qed.
(** A combinational unit reading reset, and a combinational unit giving reset to a Verilog module. *)
Definition gate (reads : list string) (checks : bool) (rst : string) (isdone : list string) : udesc :=
  {| u_front := idle_block; u_more := []; u_auto := false; u_ins := ["x"]; u_vars := []; u_outs := [comb_out];
     u_reset := rst; u_clock := "clock"; u_pipes := []; u_checks := checks; u_reads := reads; u_isdone := isdone |}.
Definition to_module : idesc := {| i_name := "m"; i_reset := None; i_clock := None; i_ins := [("rst", "reset"); ("clk", "clock")]; i_outs := [] |}.
Example C46_missing_ex : asks false (gate ["reset"] false "reset" []) [] /\ requires_reset (Unit (gate ["reset"] false "reset" []) []) = false.
Proof. split; [right; right; left; now left|reflexivity]. Qed.

(** The documentation: clock and reset "are always defined within the scope of an algorithm" (learn-silice/Documentation.md 1231-1233).
    A unit with an always block reading reset, without registers to initialize: the module uses reset, which is not declared in it.
    The same for a unit giving its reset to an imported Verilog module, for an assertion in a unit without registers to initialize, and for
    the text for formal verification of any such unit which is an instance in the unit to be verified. *)
Theorem C46_reset_declared_refuted :
  ~ (forall formal u subs, binds_outputs subs -> In (Some "reset") (uses formal u subs) -> In "reset" (declared false u subs)).
Proof.
  intro H. specialize (H false (gate ["x"; "reset"] false "reset" []) []). cbn in H.
  assert (B : binds_outputs []) by (intros i b o x []). specialize (H B). assert (X : False); [|exact X].
  destruct H as [H|[H|[H|[H|[]]]]]; [tauto| | | |]; discriminate H.
Qed.
Theorem C46_bound_reset_refuted :
  exists u subs, binds_outputs subs /\ u_reads u = [] /\ u_checks u = false
  /\ In (Some "reset") (uses false u subs) /\ ~ In "reset" (declared false u subs).
Proof.
  exists (gate [] false "reset" []), [(to_module, Import [])]. split; [intros i b o x [E|[]]; injection E as <- <-; intros []|].
  split; [reflexivity|]. split; [reflexivity|]. split; [cbn; tauto|]. cbn. intuition discriminate.
Qed.
Theorem C46_check_refuted :
  exists u, u_reads u = [] /\ In (Some "reset") (uses false u []) /\ ~ In "reset" (declared false u []).
Proof.
  exists (gate [] true "reset" []). split; [reflexivity|]. split; [cbn; tauto|]. cbn. intuition discriminate.
Qed.
Theorem C46_formal_refuted :
  exists u, u_reads u = [] /\ u_checks u = false /\ In (Some "reset") (uses true u []) /\ ~ In "reset" (declared false u []).
Proof.
  exists (gate [] false "reset" []). split; [reflexivity|]. split; [reflexivity|]. split; [cbn; tauto|]. cbn. intuition discriminate.
Qed.
(** With an internal reset [!rst] bound to the output of a module, even in the topmost unit: checks name the signal as in the source,
    which is not a name of the module. *)
Definition cleaner : idesc := {| i_name := "cl"; i_reset := None; i_clock := None; i_ins := [("clk", "clock"); ("in", "reset")]; i_outs := [("out", "rst")] |}.
Definition rst_var : reg := {| g_name := "rst"; g_ff := false; g_nfo := {| v_init := Some 0%Z; v_startup := false; v_noinit := false |} |}.
Definition with_rst : udesc :=
  {| u_front := code_block; u_more := []; u_auto := true; u_ins := []; u_vars := [rst_var; counter]; u_outs := [];
     u_reset := "rst"; u_clock := "clock"; u_pipes := []; u_checks := true; u_reads := ["n"]; u_isdone := [] |}.
Theorem C46_internal_check_refuted :
  exists u subs, binds_outputs subs /\ (forall x, In x (uses true u subs) -> x <> None)
  /\ In (Some "_w_cl_out") (uses_edges u subs) /\ In (Some (u_reset u)) (uses false u subs) /\ ~ In (u_reset u) (declared true u subs).
Proof.
  exists with_rst, [(cleaner, Import ["out"])].
  split; [intros i b o x [E|[]]; injection E as <- <-; intros [E|[]]; injection E as <- <-; now left|].
  split; [intros x H; cbn in H; decompose [or] H; subst; discriminate || contradiction|].
  split; [cbn; tauto|]. split; [cbn; tauto|]. cbn. intuition discriminate.
Qed.
(** isdone on an instance without state machine is accepted, the wire does not exist. *)
Theorem C46_isdone_refuted :
  exists u subs n, u_isdone u = [n] /\ binds_outputs subs /\ (forall x, In x (uses false u subs) -> x <> None)
  /\ exists x, In (Some x) (uses false u subs) /\ ~ In x (declared true u subs).
Proof.
  exists (gate [] false "reset" ["c"]), [({| i_name := "c"; i_reset := None; i_clock := None; i_ins := [("x", "x")]; i_outs := [] |}, ex_comb)], "c".
  split; [reflexivity|]. split; [intros i b o x [E|[]]; injection E as <- <-; intros []|].
  split; [intros x H; cbn in H; decompose [or] H; subst; discriminate || contradiction|].
  exists "_w_c_done". split; [cbn; tauto|]. cbn. intuition discriminate.
Qed.

(** * Which signal resets each unit *)
(** From the top, [!ID] on an instance, or the internal reset of the unit containing it, takes over. *)
Inductive source := Top | Signal (path : list string) (x : string).
Inductive governed (b : bp) : list string -> source -> Prop :=
| gov_top : governed b [] Top
| gov_up : forall P u subs n i c s, at_path b P = Some (Unit u subs) -> sub_at subs n = Some (i, c) ->
    inst_reset u i = "reset" -> governed b P s -> governed b (P ++ [n])%list s
| gov_here : forall P u subs n i c x, at_path b P = Some (Unit u subs) -> sub_at subs n = Some (i, c) ->
    inst_reset u i <> "reset" -> rewrite u subs (inst_reset u i) = Some x -> governed b (P ++ [n])%list (Signal P x).
Definition source_val (w : signals) (r : sig) (s : source) : sig := match s with Top => r | Signal P x => w P x end.

Lemma at_path_snoc : forall P b n, at_path b (P ++ [n])%list =
  match at_path b P with Some (Unit u subs) => match sub_at subs n with Some (_, c) => Some c | None => None end | _ => None end.
Proof.
  induction P as [|m P IH]; intros b n; cbn [at_path app].
  - destruct b as [u subs|o|o]; try reflexivity.
  - destruct b as [u subs|o|o]; try reflexivity. destruct (sub_at subs m) as [[i c]|]; [apply IH|reflexivity].
Qed.
Lemma port_snoc : forall P w here top b r u subs n i c,
  at_path b P = Some (Unit u subs) -> sub_at subs n = Some (i, c) -> requires_reset c = true ->
  port_at w here top b r (P ++ [n])%list =
    match rewrite u subs (inst_reset u i) with
    | Some x => if String.eqb x "reset" then port_at w here top b r P else w (here ++ P)%list x
    | None => None
    end.
Proof.
  induction P as [|m P IH]; intros w here top b r u subs n i c A S Q.
  - cbn in A. injection A as ->. cbn [app port_at]. rewrite S. rewrite app_nil_r.
    destruct c as [v vs|o|o]; [|discriminate Q|]; cbn [port_at]; rewrite ?Q; cbn [orb];
      (destruct (rewrite u subs (inst_reset u i)) as [x|]; [|reflexivity]; unfold text_val; destruct (String.eqb x "reset"); reflexivity).
  - destruct b as [v vs|o|o]; cbn [at_path] in A; try discriminate. cbn [app port_at].
    destruct (sub_at vs m) as [[j d]|] eqn:F; [|discriminate].
    rewrite (IH w (here ++ [m])%list false d _ u subs n i c A S Q). rewrite <- app_assoc. reflexivity.
Qed.
Lemma sub_requires : forall u subs n i c, sub_at subs n = Some (i, c) -> requires_reset c = true -> requires_reset (Unit u subs) = true.
Proof. intros u subs n i c S Q. unfold sub_at in S. apply find_some in S as [I _]. eapply in_unit; eassumption. Qed.
(** In all hierarchies, every instance which needs a reset or contains one which does has a port reset, and this port receives
    the signal which governs it. *)
Theorem C46_source : forall w r b P c s,
  at_path b P = Some c -> requires_reset c = true -> governed b P s -> port_at w [] true b r P = source_val w r s.
Proof.
  intros w r b P c s A Q G. revert c A Q.
  induction G as [|P u subs n i c s A S E G IH|P u subs n i c x A S E T]; intros d D Q.
  - cbn in D. injection D as ->. destruct d as [u subs|o|o]; [|discriminate Q|reflexivity]. cbn [port_at]. rewrite orb_true_r. reflexivity.
  - rewrite at_path_snoc, A, S in D. injection D as ->. rewrite (port_snoc P w [] true b r u subs n i d A S Q).
    rewrite E. cbn [rewrite]. change (rewrite u subs "reset") with (Some "reset"). cbn [String.eqb]. cbn.
    apply (IH _ A). eapply sub_requires; eassumption.
  - rewrite at_path_snoc, A, S in D. injection D as ->. rewrite (port_snoc P w [] true b r u subs n i d A S Q). rewrite T.
    destruct (String.eqb_spec x "reset") as [->|N]; [|reflexivity]. now apply rewrite_reset in T.
Qed.
(** Conversely every instance is governed by one signal, unless an error is reported. *)
Theorem C46_one_source : forall b P s s', governed b P s -> governed b P s' -> s = s'.
Proof.
  intros b P s s' G. revert s'. induction G as [|P u subs n i c s A S E G IH|P u subs n i c x A S E T]; intros s' G'; inversion G' as [Z|? ? ? ? ? ? ? A' S' E' Z|? ? ? ? ? ? ? A' S' E' T' Z];
    try (symmetry in Z; apply app_eq_nil in Z as [_ Z]; discriminate); try reflexivity;
    try (exfalso; destruct P; discriminate);
    match goal with H : (_ ++ [_])%list = (_ ++ [_])%list |- _ => apply app_inj_tail in H as [-> ->] end;
    rewrite A in A'; injection A' as <- <-; rewrite S in S'; injection S' as <- <-.
  - now apply IH.
  - congruence.
  - congruence.
  - rewrite T in T'. injection T' as <-. reflexivity.
Qed.

(** No internal resets: every unit uses [reset], and no instance is given another one. *)
Definition single_reset (b : bp) : Prop :=
  forall P u subs, at_path b P = Some (Unit u subs) -> u_reset u = "reset" /\ (forall i c, In (i, c) subs -> i_reset i = None \/ i_reset i = Some "reset").
Lemma single_governed : forall b, single_reset b -> forall P c, at_path b P = Some c -> governed b P Top.
Proof.
  intros b S P. induction P as [|n P IH] using rev_ind; intros c A; [constructor|].
  rewrite at_path_snoc in A. destruct (at_path b P) as [[u subs|o|o]|] eqn:E; try discriminate.
  destruct (sub_at subs n) as [[i d]|] eqn:F; [|discriminate]. eapply gov_up; [eassumption|eassumption| |eapply IH; reflexivity].
  destruct (S _ _ _ E) as [U I]. unfold inst_reset. apply find_some in F as [F _]. destruct (I _ _ F) as [-> | ->]; [assumption|reflexivity].
Qed.
(** One cycle of reset at the top initializes everything below: in every unit, at whatever depth, each register having an initial value
    (other than those set at power up) takes it at the clock edge, whatever its input, the state machine goes to its termination state
    and is ready to start by itself. Restricted to hierarchies where no unit has an internal reset. *)
Theorem C46_init_partial : forall w b P u subs,
  single_reset b -> at_path b P = Some (Unit u subs) ->
  let rst := own_reset w P u subs (port_at w [] true b (Some true) P) in
  (forall g v, In g (u_vars u ++ u_outs u) -> g_ff g = true -> g_nfo g = {| v_init := Some v; v_startup := false; v_noinit := false |} ->
     rst = Some true /\ exists rhs, reg_rhs (alg_of u) (g_nfo g) = Some rhs /\ forall run d, reg_edge rhs true run d = v)
  /\ (no_fsm u = false -> rst = Some true /\ forall auto run entry d, idx_edge (alg_of u) true auto run entry d = 0 /\ auto_edge true = false).
Proof.
  intros w b P u subs S A rst.
  assert (R : requires_reset (Unit u subs) = true -> rst = Some true).
  { intro Q. unfold rst, own_reset, reset_text. destruct (S _ _ _ A) as [-> _]. cbn [String.eqb]. cbn.
    rewrite (C46_source w (Some true) b P _ Top A Q); [reflexivity|]. eapply single_governed; eassumption. }
  split.
  - intros g v I F N. split.
    + apply R. apply requires_unit. left. right. exists g. rewrite N. tauto.
    + unfold reg_rhs. rewrite N. unfold init_cond. cbn [v_init v_startup v_noinit orb].
      destruct (callable (alg_of u)); eexists; (split; [reflexivity|reflexivity]).
  - intro N. split; [apply R; apply requires_unit; left; now left|]. intros. split; reflexivity.
Qed.
Example C46_init_ex : at_path ex_main ["a"; "t"] = Some ex_task /\ single_reset ex_main
  /\ port_at (fun _ _ => None) [] true ex_main (Some true) ["a"; "t"] = Some true.
Proof.
  split; [reflexivity|]. split; [|reflexivity].
  assert (H : forall u subs, u_reset u = "reset" -> (forall i c, In (i, c) subs -> i_reset i = None) ->
     forall v vs, Some (Unit u subs) = Some (Unit v vs) -> u_reset v = "reset" /\ (forall i c, In (i, c) vs -> i_reset i = None \/ i_reset i = Some "reset")).
  { intros u subs E F v vs Q. injection Q as <- <-. split; [assumption|]. intros i c I. left. eapply F; eassumption. }
  assert (I : forall n i (c : bp), i = plain_inst n -> i_reset i = None) by (intros; subst; reflexivity).
  intros P u subs A. destruct P as [|n P]; cbn -[String.eqb] in A.
  - refine (H _ _ _ _ _ _ A); [reflexivity|]. intros i c [E|[]]. now injection E as <- <-.
  - destruct (String.eqb "a" n); cbn -[String.eqb] in A; [|discriminate A]. destruct P as [|m P]; cbn -[String.eqb] in A.
    + refine (H _ _ _ _ _ _ A); [reflexivity|]. intros i c [E|[E|[]]]; now injection E as <- <-.
    + destruct (String.eqb "t" m); cbn -[String.eqb] in A; [|destruct (String.eqb "c" m); cbn -[String.eqb] in A; [|discriminate A]];
        (destruct P as [|k P]; cbn -[String.eqb] in A; [|discriminate A]); (refine (H _ _ _ _ _ _ A); [reflexivity|intros i c []]).
Qed.
Lemma not_driven : forall w n c P here top b r,
  at_path b (P ++ [n])%list = Some c -> requires_reset c = false -> port_at w here top b r (P ++ [n])%list = None.
Proof.
  intros w n c. induction P as [|m P IH]; intros here top b r A Q; cbn [app at_path] in A; destruct b as [u subs|o|o]; try discriminate; cbn [app port_at].
  - destruct (sub_at subs n) as [[i d]|]; [|discriminate A]. injection A as ->. rewrite Q.
    destruct c as [v vs|o|o]; [cbn [port_at]; rewrite ?Q; reflexivity|reflexivity|discriminate Q].
  - destruct (sub_at subs m) as [[i d]|]; [|discriminate A]. now apply IH.
Qed.
(** A unit which needs no reset gets none: reset is not driven in it, even when a cycle of reset is on at the top. *)
Theorem C46_not_driven : forall w r b P n c, at_path b (P ++ [n])%list = Some c -> requires_reset c = false -> port_at w [] true b r (P ++ [n])%list = None.
Proof. intros. eapply not_driven; eassumption. Qed.
Example C46_not_driven_ex : at_path ex_main (["a"] ++ ["c"]) = Some ex_comb /\ requires_reset ex_comb = false.
Proof. split; reflexivity. Qed.

(** An instance producing the internal reset of its unit is, unless told otherwise, reset by its own output: whatever the reset at the top. *)
Definition cleaner_unit : bp := Unit (plain_unit false false [] [counter]) [].
Definition cleaner_inst : idesc := {| i_name := "cl"; i_reset := None; i_clock := None; i_ins := [("x", "reset")]; i_outs := [("n", "rst")] |}.
Definition ex_internal : bp := Unit with_rst [(cleaner_inst, cleaner_unit)].
Theorem C46_internal_refuted :
  ~ (forall b P c, at_path b P = Some c -> requires_reset c = true -> exists r0, forall w, port_at w [] true b r0 P = Some true).
Proof.
  intro H. destruct (H ex_internal ["cl"] cleaner_unit eq_refl eq_refl) as [r0 R]. specialize (R (fun _ _ => None)). discriminate R.
Qed.
Theorem C46_self_reset : forall w r, port_at w [] true ex_internal r ["cl"] = w [] "_w_cl_n".
Proof. reflexivity. Qed.

(** * Pipelines *)
(** After a cycle of reset, the stages of the pipelines of a unit having a state machine are idle and empty. *)
Theorem C46_pipeline_partial : forall u term idx full, no_fsm u = false -> stage_edge (negb (no_fsm u)) true term idx full = (term, false).
Proof. intros u term idx full H. rewrite H. reflexivity. Qed.
Example C46_pipeline_ex : no_fsm (plain_unit true false [] []) = false.
Proof. reflexivity. Qed.
(** Those of the pipelines in the always block of a unit without state machine are not touched by the reset, and their index has no value at power up. *)
Theorem C46_pipeline_refuted :
  exists u, no_fsm u = true /\ requires_reset (Unit u []) = true
  /\ forall reset term idx full, stage_edge (negb (no_fsm u)) reset term idx full = (idx, full).
Proof. exists (plain_unit false false [counter] []). split; [reflexivity|]. split; [reflexivity|]. reflexivity. Qed.

Example C46_source_ex : governed ex_internal ["cl"] (Signal [] "_w_cl_n") /\ governed ex_main ["a"; "t"] Top.
Proof.
  split.
  - apply (gov_here ex_internal [] with_rst [(cleaner_inst, cleaner_unit)] "cl" cleaner_inst cleaner_unit); [reflexivity|reflexivity|discriminate|reflexivity].
  - apply (gov_up ex_main ["a"] (plain_unit false false [counter] [comb_out]) [(plain_inst "t", ex_task); (plain_inst "c", ex_comb)] "t" (plain_inst "t") ex_task Top);
      [reflexivity|reflexivity|reflexivity|].
    apply (gov_up ex_main [] (plain_unit true true [counter] []) [(plain_inst "a", ex_mid)] "a" (plain_inst "a") ex_mid Top);
      [reflexivity|reflexivity|reflexivity|constructor].
Qed.

Print Assumptions C46_pins. Print Assumptions C46_run. Print Assumptions C46_riscv. Print Assumptions C46_required. Print Assumptions C46_declared_partial.
Print Assumptions C46_missing. Print Assumptions C46_reset_declared_refuted. Print Assumptions C46_bound_reset_refuted. Print Assumptions C46_check_refuted.
Print Assumptions C46_formal_refuted. Print Assumptions C46_internal_check_refuted. Print Assumptions C46_isdone_refuted. Print Assumptions C46_source.
Print Assumptions C46_one_source. Print Assumptions C46_init_partial. Print Assumptions C46_not_driven. Print Assumptions C46_internal_refuted.
Print Assumptions C46_self_reset. Print Assumptions C46_pipeline_partial. Print Assumptions C46_pipeline_refuted.
