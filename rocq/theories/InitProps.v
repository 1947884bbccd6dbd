(** C56: initial values of the variables declared inside the body of an algorithm. *)
From Coq Require Import List Bool Arith ZArith Lia.
Import ListNotations.
From Verif Require Import FsmModel FsmEmit FsmLayout FsmRenum FsmRegion FsmStates FsmArms FsmSource FsmCorrect FsmRun FsmBig FsmSkip FsmProps InitModel InitRuns InitView InitEmit InitProofs.

(** * Declarations do what the same assignments do *)
(** Cycle by cycle, with any inputs and any always_before block: the machine of a program with declarations is in the same state and has the same values as the
    machine of the program where they are assignments, when [settled]: in a run of instructions a variable is not mentioned before its declaration, a run
    with a declaration does not follow a place where the states are merged, a run made only of declarations with expressions follows a step or is the first.
    The variables declared in the first run hold their initial values when the machine starts (C35). *)
Theorem C56_cycles_partial : forall kind fuel unit deps0 p m inp pre,
  constants kind -> settled kind unit p = true -> compile fuel unit deps0 p = Some m -> Legal deps0 pre p ->
  (forall t a b, eqs a b -> eqs (inp t a) (inp t b)) -> (forall t a b, eqs a b -> eqs (pre t a) (pre t b)) ->
  exists mI, compile_init kind fuel unit deps0 p = Some mI /\ f_entry mI = f_entry m /\ f_max mI = f_max m /\
    forall s0, holds kind (first_run unit p) (pre 0 (inp 0 s0)) ->
    forall n, exists D D' i c, runs m inp pre n s0 = Some (D, i) /\ runs mI inp pre n s0 = Some (D', i) /\ eqs D D' /\
      reach (body unit p) (env inp pre) n (Run (SStep :: body unit p) KStop, s0) (c, D) /\ (i = 0 -> over (body unit p) c) /\ (i <> 0 -> exists c', tick c c' /\ c <> Run [] KStop).
Proof.
  intros kind fuel unit deps0 p m inp pre CK ST CP LG EI EP. destruct (compile_chain _ _ _ _ _ CP) as [s [g [r CH]]].
  destruct (states_ok _ _ _ _ _ _ (h_body _ _ _ _ _ _ _ _ CH) (h_gen _ _ _ _ _ _ _ _ CH) (l_jump _ _ _ LG)) as [c [ic O]].
  destruct (init_chain kind CK fuel unit deps0 p m s g r c ic CH (l_jump _ _ _ LG) (l_cover _ _ _ LG) O ST) as [mI [C1 [C2 [C3 C4]]]].
  exists mI. split; [exact C1|]. split; [exact C2|]. split; [exact C3|]. intros s0 H n.
  destruct (init_runs kind CK fuel unit deps0 p m s g r c ic CH (l_jump _ _ _ LG) (l_cover _ _ _ LG) O ST inp pre (l_pre _ _ _ LG) EI EP mI s0 C1 H n) as [D [D' [i [R1 [R2 R3]]]]].
  destruct (follow fuel unit deps0 p m inp pre CP LG n s0) as [D1 [i1 [cf [F1 [F2 [F3 F4]]]]]]. rewrite R1 in F1. injection F1 as <- <-.
  exists D, D', i, cf. auto 10.
Qed.

(** The machine of a structured program terminates exactly when executing the program in order does, with the same values: at its declaration a variable
    takes its value, every time the declaration is reached. *)
Theorem C56_structured_partial : forall kind fuel unit deps0 p m s,
  constants kind -> settled kind unit p = true -> compile fuel unit deps0 p = Some m -> structureds false p = true -> covereds p = true -> holds kind (first_run unit p) s ->
  exists mI, compile_init kind fuel unit deps0 p = Some mI /\
    (forall s', exec false p s Normal s' -> exists n0, forall n, n0 <= n -> exists s2, runs mI closed closed n s = Some (s2, 0) /\ eqs s' s2) /\
    (forall n s2, runs mI closed closed n s = Some (s2, 0) -> exists s', exec false p s Normal s' /\ eqs s' s2).
Proof.
  intros kind fuel unit deps0 p m s CK ST CP SP CV H. destruct (structureds_gotos false p SP) as [G W].
  assert (NJ : nojumps (gotoss p) p = true) by (rewrite G; apply nojumps_nil).
  assert (WT : forall d x, In d (waitss p) -> In x (evars d) -> ~ In x deps0) by (intros d x X; rewrite W in X; destruct X).
  destruct (C56_cycles_partial kind fuel unit deps0 p m closed closed CK ST CP (legal_closed deps0 p NJ CV WT) ltac:(auto) ltac:(auto)) as [mI [C1 [_ [_ C]]]].
  exists mI. split; [exact C1|]. specialize (C s H). split.
  - intros s' E. destruct (machine_exec false fuel unit deps0 p m s s' CP SP CV) as [_ M]. destruct (M E) as [n0 N]. exists n0. intros n L.
    destruct (C n) as [D [D' [i [cf [R1 [R2 [R3 _]]]]]]]. rewrite (N n L) in R1. injection R1 as <- <-. now exists D'.
  - intros n s2 R. destruct (C n) as [D [D' [i [cf [R1 [R2 [R3 _]]]]]]]. rewrite R in R2. injection R2 as <- <-. exists D. split; [|exact R3].
    apply (machine_exec false fuel unit deps0 p m s D CP SP CV). now exists n.
Qed.

(** Declarations in the examples: a value is written under one mark, an expression under two. *)
Definition same_z (z : Z) : Z := z.
Definition decl (x : var) (n : Z) : stmt := SAssign x (EU same_z (EC n)).
Definition decle (x : var) (e : expr) : stmt := SAssign x (EU same_z (EU same_z e)).
Definition kinds (i : instr) : ikind :=
  match i with IAssign _ (EU _ (EC _)) => KInit | IAssign _ (EU _ (EU _ _)) => KExpr | _ => KPlain end.
Lemma kinds_constants : constants kinds.
Proof. intros [x [n|y|f [n|y|g a|h a b]|h a b]|] H; try discriminate. exists x, (EU f (EC n)). auto. Qed.

(** A variable of an iteration takes its value at every iteration, another one the value of an expression after a step. *)
Definition d1 : list stmt :=
  [ inc 5; decl 0 0; SWhile (lt 0 3) [ inc 6; decl 1 4; SWhile (lt 1 6) [ inc 1; inc 2 ]; SStep; decle 3 (EB Z.add (EV 0) (EV 2)); SStep; inc 0; SIf (lt 0 2) [ decl 4 7; inc 4 ] ] ].
Example C56_ex : exists m mI, compile 200 true [] d1 = Some m /\ compile_init kinds 200 true [] d1 = Some mI /\ settled kinds true d1 = true /\ structureds false d1 = true /\ covereds d1 = true
  /\ holds kinds (first_run true d1) (st 0 0) /\ obs 7 (runs mI closed closed 60 (st 9 9)) = Some ([3; 6; 6; 8; 8; 1; 3]%Z, 0).
Proof.
  eexists. eexists. split; [vm_compute; reflexivity|]. split; [vm_compute; reflexivity|]. split; [reflexivity|]. split; [reflexivity|]. split; [reflexivity|]. split; [|vm_compute; reflexivity].
  intros x e [].
Qed.
(** Directly in the first block the value is not written: the register already holds it. *)
Definition d2 : list stmt := [ decl 0 5; inc 0; SStep; decl 1 6; inc 1 ].
Example C56_ex_top : exists mI, compile_init kinds 200 false [] d2 = Some mI /\ settled kinds false d2 = true /\ first_run false d2 <> [] /\ holds kinds (first_run false d2) (st 5 0)
  /\ obs 2 (runs mI closed closed 20 (st 5 0)) = Some ([6; 7]%Z, 0).
Proof.
  eexists. split; [vm_compute; reflexivity|]. split; [reflexivity|]. split; [discriminate|]. split; [|vm_compute; reflexivity].
  intros x e I K. cbn in I. destruct I as [[= <- <-]|[[= <- <-]|[]]]; [reflexivity|discriminate].
Qed.

(** * Where it does not hold *)
(** Variables a piece of code assigns. *)
Fixpoint sets (c : vst) : list var :=
  match c with
  | VSet x _ => [x]
  | VIdx _ => []
  | VIf _ a b => flat_map sets a ++ flat_map sets b
  | VCase _ cs => flat_map (fun c => flat_map sets (snd c)) cs
  end.
Lemma vexecs_keep Q x l : Forall (fun c => ~ In x (sets c) -> forall s, fst (vexec Q c s) x = fst s x) l -> ~ In x (flat_map sets l) -> forall s, fst (vexecs Q l s) x = fst s x.
Proof.
  intros F. induction F as [|c l H _ IH]; intros N s; [reflexivity|]. cbn [vexecs flat_map] in *. rewrite IH by (intros X; apply N, in_or_app; now right).
  apply H. intros X. apply N, in_or_app. now left.
Qed.
Lemma vexec_keep Q x c : ~ In x (sets c) -> forall s, fst (vexec Q c s) x = fst s x.
Proof.
  induction c using vst_ind'; intros N s.
  - cbn. unfold upd. destruct (Nat.eqb_spec x x0) as [E|E]; [|reflexivity]. exfalso. apply N. now left.
  - reflexivity.
  - rewrite vexec_if. cbn [sets] in N. destruct (truth _); apply vexecs_keep; try assumption; intros X; apply N, in_or_app; auto.
  - rewrite vexec_case. destruct (pick (veval Q (fst s) e) cs) as [l|] eqn:P; [|reflexivity]. apply pick_in in P. apply in_map_iff in P. destruct P as [[v l'] [E P]]. cbn in E. subst l'.
    rewrite Forall_forall in H. specialize (H _ P). cbn in H. apply vexecs_keep; [exact H|]. intros X. apply N. cbn [sets]. apply in_flat_map. exists (v, l). auto.
Qed.
Lemma never_set m x : ~ In x (flat_map (fun a => flat_map sets (snd a)) (f_arms m)) -> forall n s D i, runs m closed closed n s = Some (D, i) -> D x = s x.
Proof.
  intros N. induction n as [|n IH]; intros s D i H; [cbn in H; injection H as <- _; reflexivity|]. cbn [runs] in H. apply obind_some in H. destruct H as [[D1 i1] [H1 H]].
  rewrite <- (IH _ _ _ H1). unfold closed, cycle in H. destruct (Nat.eqb i1 0); [injection H as <- _; reflexivity|]. apply obind_some in H. destruct H as [code [Hc H]]. injection H as H.
  replace D with (fst (vexecs D1 code (D1, i1))) by now rewrite H. apply (vexecs_keep D1 x code); [apply Forall_forall; intros c _; apply vexec_keep|].
  intros X. apply N. apply in_flat_map. exists (i1, code). split; [now apply arm_of_in|exact X].
Qed.

(** [if (c) { ++: } uint8 x = a + b; while (x < n) ..]: the declaration with an expression is skipped. Whatever the values, the variable never receives the
    value of the expression, while executing the source assigns it. *)
Definition skipped : list stmt := [ SIf (EV 0) [ SStep ]; decle 1 (EB Z.add (EV 2) (EV 3)); SWhile (EB Z.sub (EV 1) (EV 4)) [ inc 5; SAssign 4 (EV 1) ] ].
Theorem C56_expression_refuted : exists mI, compile_init kinds 200 true [] skipped = Some mI /\ structureds false skipped = true /\ covereds skipped = true /\
  forall s, s 4 = (Z.add (s 2) (s 3)) -> (exists s', exec false skipped s Normal s' /\ s' 1 = (Z.add (s 2) (s 3))) /\ forall n D i, runs mI closed closed n s = Some (D, i) -> D 1 = s 1.
Proof.
  eexists. split; [vm_compute; reflexivity|]. split; [reflexivity|]. split; [reflexivity|]. intros s E. split.
  - exists (upd s 1 (Z.add (s 2) (s 3))). split; [|reflexivity]. unfold skipped. eapply x_cons; [apply (x_if _ _ _ _ _ s)|].
    + destruct (truth (eval s (EV 0))); [eapply x_cons; [apply x_step|apply x_nil]|apply x_nil].
    + eapply x_cons; [apply x_assign|]. eapply x_cons; [apply x_while_end|apply x_nil]. cbn. rewrite E, Z.sub_diag. reflexivity.
  - intros n D i. apply never_set. vm_compute. intuition discriminate.
Qed.

(** The same at the end of the program: a step followed by a declaration with an expression. *)
Definition skipped_end : list stmt := [ inc 0; SStep; decle 1 (EB Z.add (EV 2) (EV 3)) ].
Theorem C56_expression_last_refuted : exists mI, compile_init kinds 200 false [] skipped_end = Some mI /\
  forall s, exec false skipped_end s Normal (upd (upd s 0 (Z.add (s 0) 1)) 1 (Z.add (s 2) (s 3))) /\ forall n D i, runs mI closed closed n s = Some (D, i) -> D 1 = s 1.
Proof.
  eexists. split; [vm_compute; reflexivity|]. intros s. split.
  - unfold skipped_end. eapply x_cons; [apply x_assign|]. eapply x_cons; [apply x_step|]. eapply x_cons; [apply x_assign|]. apply x_nil.
  - intros n D i. match goal with |- runs ?m _ _ _ _ = _ -> _ => assert (K : forall n, runs m closed closed (S n) s = Some (upd s 0 (Z.add (s 0) 1), 0)) end.
    { clear. intros n. induction n as [|n IH]; [reflexivity|]. cbn [runs] in *. rewrite IH. reflexivity. }
    destruct n as [|n]; [intros [= <- _]; reflexivity|]. rewrite K. intros [= <- _]. reflexivity.
Qed.

(** A declaration with a value where states are merged costs a cycle more than the assignment. *)
Definition late (d : stmt) : list stmt := [ SIf (EV 0) [ SIf (EV 1) [ SStep; inc 2 ] ]; d; inc 3 ].
Theorem C56_extra_cycle_refuted : exists m mI n, compile 200 true [] (late (decl 4 3)) = Some m /\ compile_init kinds 200 true [] (late (decl 4 3)) = Some mI /\
  obs 5 (runs m closed closed n (st 1 1)) = Some ([1; 1; 1; 1; 3]%Z, 0) /\ obs 5 (runs mI closed closed n (st 1 1)) <> Some ([1; 1; 1; 1; 3]%Z, 0) /\
  obs 5 (runs mI closed closed (S n) (st 1 1)) = Some ([1; 1; 1; 1; 3]%Z, 0).
Proof.
  eexists. eexists. exists 3. split; [vm_compute; reflexivity|]. split; [vm_compute; reflexivity|]. split; [vm_compute; reflexivity|]. split; [vm_compute; discriminate|vm_compute; reflexivity].
Qed.

(** A variable written and read before its declaration in the same run: the read sees the initial value, the write is kept. *)
Theorem C56_before_refuted : exists mI s', compile_init kinds 200 false [] [ SStep; set 1 8; SAssign 2 (EV 3); decl 1 5; decl 3 6 ] = Some mI /\
  exec false [ SStep; set 1 8; SAssign 2 (EV 3); decl 1 5; decl 3 6 ] (st 0 0) Normal s' /\ map s' [1; 2; 3] = [5; 0; 6]%Z /\
  obs 4 (runs mI closed closed 10 (st 0 0)) = Some ([0; 8; 6; 6]%Z, 0).
Proof.
  eexists. eexists. split; [vm_compute; reflexivity|]. split; [|split].
  - eapply x_cons; [apply x_step|]. eapply x_cons; [apply x_assign|]. eapply x_cons; [apply x_assign|]. eapply x_cons; [apply x_assign|]. eapply x_cons; [apply x_assign|]. apply x_nil.
  - vm_compute. reflexivity.
  - vm_compute. reflexivity.
Qed.

Print Assumptions C56_cycles_partial.
Print Assumptions C56_structured_partial.
Print Assumptions C56_expression_refuted.
Print Assumptions C56_expression_last_refuted.
Print Assumptions C56_extra_cycle_refuted.
Print Assumptions C56_before_refuted.
