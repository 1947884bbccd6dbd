(** Properties of expression trackers. *)
From Coq Require Import List Bool Arith ZArith Lia.
Import ListNotations.
From Verif Require Import FsmModel FsmRun FsmEmit FsmArms UseModel UseProofs DefineModel DefineProofs DefineSim DefineCycle TrackModel TrackProofs TrackDeps TrackSettle.
From Verif Require DepModel DepProofs.

(** A tracker, the documentation's example: a = 15; b = 3; o = a_plus_b; with a_plus_b <: a + b. Variables 0, 1, 2, tracker 3. *)
Definition plus := EB Z.add.
Definition t_sum := [{| t_var := 3; t_late := false; t_exp := plus (EV 0) (EV 1) |}].
Definition b_sum := [(0, EC 15); (1, EC 3); (2, EV 3)].

(** * The circuit does what the source says: reading a tracker is evaluating its expression on the current values.
    Hypotheses: trackers are not recursive, are not assigned, and the variables of their expressions are not assigned after a read in the cycle. *)
Theorem C48_reads_expression ts o : flat ts = true -> NoDup (map t_var ts) -> unassigned ts o = true -> late_out ts o = true -> forall Q D0 idx,
  match kcycle (put_out (isw ts) (meaning ts) o) Q D0 idx with
  | None => forall W, kcycle o (wired ts Q W) (wired ts D0 W) idx = None
  | Some (E, i) =>
      (exists W E', settled ts o Q D0 W idx E' i) /\
      forall W E' i', settled ts o Q D0 W idx E' i' ->
        i' = i /\ (forall x, isw ts x = false -> E' x = E x) /\ forall x, isw ts x = true -> W x = veval Q E (meaning ts x)
  end.
Proof. intros F N U L Q D0 idx. now apply immediate. Qed.
Print Assumptions C48_reads_expression.

Example C48_reads_expression_ex :
  flat t_sum = true /\ unassigned t_sum (circuit t_sum b_sum) = true /\ late_out t_sum (circuit t_sum b_sum) = true /\ accepted t_sum 4 b_sum = true /\
  forall Q idx W E i, settled t_sum (circuit t_sum b_sum) Q Q W idx E i -> E 2 = 18%Z /\ W 3 = 18%Z.
Proof.
  split; [reflexivity|]. split; [reflexivity|]. split; [reflexivity|]. split; [vm_compute; reflexivity|].
  intros Q idx W E i S. pose proof (C48_reads_expression t_sum (circuit t_sum b_sum) eq_refl) as T.
  specialize (T (NoDup_cons 3 (fun x : In 3 [] => x) (NoDup_nil _)) eq_refl eq_refl Q Q idx).
  destruct (kcycle (put_out (isw t_sum) (meaning t_sum) (circuit t_sum b_sum)) Q Q idx) as [[E0 i0]|] eqn:K.
  - destruct T as [_ T]. destruct (T W E i S) as (_ & A & B). vm_compute in K. injection K as K1 _.
    rewrite A by reflexivity. rewrite B by reflexivity. subst E0. split; reflexivity.
  - exfalso. vm_compute in K. discriminate.
Qed.

(** A tracker of a tracker read in a conditional of a state, after assignments in always_before. *)
Definition t_two := [{| t_var := 4; t_late := false; t_exp := plus (EV 3) (EC 1) |}; {| t_var := 3; t_late := false; t_exp := plus (EV 0) (EV 1) |}].
Definition m_two : kmod := {| k_pre := [KSet 0 (plus (EV 0) (EC 1))]; k_states := [(1, [KIf (EV 4) [KSet 1 (EC 7); KSet 2 (EV 4)] [KSet 2 (EC 0)]; KIdx 0])];
  k_post := [KSet 5 (EV 4)]; k_q := fun _ => false; k_d := [] |}.
Example C48_reads_expression_ex2 : flat t_two = true /\ unassigned t_two (module_use (isw t_two) m_two) = true /\ late_out t_two (module_use (isw t_two) m_two) = false.
Proof. repeat split; vm_compute; reflexivity. Qed.
(** The test of the conditional reads the tracker before b (1) is assigned: outside the hypotheses. With b assigned in always_before it is inside. *)
Definition m_three : kmod := {| k_pre := [KSet 0 (plus (EV 0) (EC 1)); KSet 1 (EC 7)]; k_states := [(1, [KIf (EV 4) [KSet 2 (EV 4)] [KSet 2 (EC 0)]; KIdx 0])];
  k_post := [KSet 5 (EV 4)]; k_q := fun _ => false; k_d := [] |}.
Example C48_reads_expression_ex3 : late_out t_two (module_use (isw t_two) m_three) = true /\
  exists E i, kcycle (put_out (isw t_two) (meaning t_two) (module_use (isw t_two) m_three)) (fun _ => 3%Z) (fun _ => 3%Z) 1 = Some (E, i) /\
    E 2 = 12%Z /\ E 5 = 12%Z /\ i = 0.
Proof. split; [vm_compute; reflexivity|]. eexists _, _. split; [vm_compute; reflexivity|]. repeat split; reflexivity. Qed.

(** * Accepted assignments and trackers have exactly one behaviour.
    [_partial]: bodies without conditionals, <:: trackers which do not read other trackers; both restrictions are needed (see below). *)
Theorem C48_accepted_settles_partial ts n b : NoDup (map t_var ts) -> (forall k, In k ts -> t_var k < n /\ forall y, In y (evars (t_exp k)) -> y < n) ->
  (forall a, In a b -> fst a < n /\ forall y, In y (evars (snd a)) -> y < n) ->
  (forall k y, In k ts -> t_late k = true -> In y (evars (t_exp k)) -> isw ts y = false) -> accepted ts n b = true ->
  forall Q idx, exists W E, settled ts (circuit ts b) Q Q W idx E idx /\
    forall W' E' i', settled ts (circuit ts b) Q Q W' idx E' i' -> i' = idx /\ forall x, isw ts x = true -> W' x = W x.
Proof. intros N RT RB TM AC Q idx. apply (one_value ts n); assumption. Qed.
Print Assumptions C48_accepted_settles_partial.
Example C48_accepted_settles_ex :
  let ts := [{| t_var := 3; t_late := false; t_exp := plus (EV 4) (EV 1) |}; {| t_var := 4; t_late := false; t_exp := EV 0 |}; {| t_var := 5; t_late := true; t_exp := plus (EV 0) (EV 2) |}] in
  let b := [(0, plus (EV 5) (EC 1)); (2, EV 3); (1, EC 4)] in
  accepted ts 6 b = true /\ forall Q : store, exists W E, settled ts (circuit ts b) Q Q W 0 E 0 /\ W 5 = (Q 0%nat + Q 2%nat)%Z /\ E 2 = (Q 0%nat + Q 2%nat + 1 + 4)%Z.
Proof.
  split; [vm_compute; reflexivity|]. intros Q.
  exists (fun x => match x with 5 => (Q 0%nat + Q 2%nat)%Z | 4 => (Q 0%nat + Q 2%nat + 1)%Z | _ => (Q 0%nat + Q 2%nat + 1 + 4)%Z end).
  eexists. split; [split; [vm_compute; reflexivity|]|split; reflexivity].
  intros k [<-|[<-|[<-|[]]]]; reflexivity.
Qed.

(** * <:: has the value of the previous cycle.
    Cycles settle one after the other; [Q] at the next cycle is the end of the previous one, for the variables not changed by the environment (inputs, reset). *)
Section Runs.
  Variables (ts : list trk) (o : kout) (Q D0 W E : nat -> store) (idx jdx : nat -> nat).
  Hypothesis ND : NoDup (map t_var ts).
  Hypothesis UN : unassigned ts o = true.
  Hypothesis RUN : forall n, settled ts o (Q n) (D0 n) (W n) (idx n) (E n) (jdx n).

  Lemma text_late_eval R V F e : veval (wired ts R V) F (text ts true e) = eval (fun x => if isw ts x then F x else R x) e.
  Proof.
    induction e as [c|y|f a IH|f a IHa b IHb]; cbn [text veval eval]; try reflexivity.
    - destruct (isw ts y) eqn:Y; cbn [veval]; [reflexivity|]. unfold wired. now rewrite Y.
    - now rewrite IH.
    - now rewrite IHa, IHb.
  Qed.
  Lemma text_quick_eval R V F e : veval (wired ts R V) F (text ts false e) = eval F e.
  Proof.
    induction e as [c|y|f a IH|f a IHa b IHb]; cbn [text veval eval]; try reflexivity.
    - destruct (isw ts y); reflexivity.
    - now rewrite IH.
    - now rewrite IHa, IHb.
  Qed.
  Lemma eval_same (s s' : store) e : (forall y, In y (evars e) -> s y = s' y) -> eval s e = eval s' e.
  Proof.
    induction e as [c|y|f a IH|f a IHa b IHb]; intros H; cbn [eval evars] in *; try reflexivity.
    - apply H. now left.
    - now rewrite IH.
    - rewrite IHa, IHb; [reflexivity| |]; intros y I; apply H, in_or_app; auto.
  Qed.

  (** Trackers of the expression keep their current value, variables have the value of the end of the previous cycle. *)
  Lemma delayed_mixed n k : In k ts -> t_late k = true -> (forall y, In y (evars (t_exp k)) -> isw ts y = false -> Q (S n) y = E n y) ->
    W (S n) (t_var k) = eval (fun x => if isw ts x then W (S n) x else E n x) (t_exp k).
  Proof.
    intros I L K. destruct (RUN (S n)) as [R1 R2]. rewrite R2 by exact I. unfold wtext. rewrite L, text_late_eval. apply eval_same.
    intros y Iy. destruct (isw ts y) eqn:Y; [|now apply K]. eapply wired_kept; eauto.
  Qed.
  Lemma immediate_end n k : In k ts -> t_late k = false -> W n (t_var k) = eval (E n) (t_exp k).
  Proof. intros I L. destruct (RUN n) as [_ R2]. rewrite R2 by exact I. unfold wtext. now rewrite L, text_quick_eval. Qed.
End Runs.

Theorem C48_delayed ts o (Q D0 W E : nat -> store) (idx jdx : nat -> nat) : unassigned ts o = true ->
  (forall n, settled ts o (Q n) (D0 n) (W n) (idx n) (E n) (jdx n)) ->
  forall n k, In k ts -> t_late k = true -> (forall y, In y (evars (t_exp k)) -> isw ts y = false -> Q (S n) y = E n y) ->
  W (S n) (t_var k) = eval (fun x => if isw ts x then W (S n) x else E n x) (t_exp k) /\
  ((forall y, In y (evars (t_exp k)) -> isw ts y = false) -> W (S n) (t_var k) = eval (E n) (t_exp k) /\
    forall k', In k' ts -> t_late k' = false -> t_exp k' = t_exp k -> W (S n) (t_var k) = W n (t_var k')).
Proof.
  intros UN RUN n k I L K. pose proof (delayed_mixed ts o Q D0 W E idx jdx UN RUN n k I L K) as A. split; [exact A|]. intros NW.
  assert (B : W (S n) (t_var k) = eval (E n) (t_exp k)).
  { rewrite A. apply eval_same. intros y Iy. now rewrite NW. }
  split; [exact B|]. intros k' I' L' EE. rewrite B, <- EE. symmetry. eapply immediate_end; eauto.
Qed.
Print Assumptions C48_delayed.

(** A counter: c = c + 1, with t1 <: c + 10 and t2 <:: c + 10 : t2 follows t1 one cycle later. *)
Definition t_cnt := [{| t_var := 1; t_late := false; t_exp := plus (EV 0) (EC 10) |}; {| t_var := 2; t_late := true; t_exp := plus (EV 0) (EC 10) |}].
Definition b_cnt := [(0, plus (EV 0) (EC 1))].
Example C48_delayed_ex :
  let Q := fun (n : nat) (x : var) => Z.of_nat n in
  let W := fun (n : nat) (x : var) => match x with 1 => (Z.of_nat n + 1 + 10)%Z | _ => (Z.of_nat n + 10)%Z end in
  let E := fun (n : nat) => upd (wired t_cnt (Q n) (W n)) 0 (Z.of_nat n + 1)%Z in
  (forall n, settled t_cnt (circuit t_cnt b_cnt) (Q n) (Q n) (W n) 0 (E n) 0) /\ (forall n, W (S n) 2 = W n 1) /\
  (forall n y, In y (evars (plus (EV 0) (EC 10))) -> Q (S n) y = E n y).
Proof.
  cbv zeta. split; [|split].
  - intros n. split; [reflexivity|]. intros k [<-|[<-|[]]]; reflexivity.
  - intros n. rewrite Nat2Z.inj_succ. cbn. lia.
  - intros n y [<-|[]]. rewrite Nat2Z.inj_succ. unfold upd, wired. cbn. lia.
Qed.

(** * What is not guaranteed *)

(** The error "variable assignement changes the value of a <: tracked expression that was assigned before" is never reported: 'o = t; a = 5;' with t <: a
    is accepted and o gets 5, the value of a when t is read is not used. *)
Theorem C48_assigned_before_refuted :
  (forall ts n d x, tracked_before ts n d x = false) /\
  exists ts n b, accepted ts n b = true /\
    (forall Q idx W E i, settled ts (circuit ts b) Q Q W idx E i -> E 1 = 5%Z) /\
    forall Q : store, exists E i, kcycle (put_out (isw ts) (meaning ts) (circuit ts b)) Q Q 0 = Some (E, i) /\ E 1 = Q 0.
Proof.
  split.
  - intros ts n d x. unfold tracked_before. apply not_true_iff_false. rewrite existsb_exists. intros (k & Ik & H). apply andb_prop in H. destruct H as [_ H].
    rewrite existsb_exists in H. destruct H as (v & _ & H). apply andb_prop in H. destruct H as [_ H]. apply negb_true_iff in H.
    unfold isw in H. apply not_true_iff_false in H. apply H. apply existsb_exists. exists k. split; [exact Ik|apply Nat.eqb_refl].
  - exists [{| t_var := 2; t_late := false; t_exp := EV 0 |}], 3, [(1, EV 2); (0, EC 5)]. split; [vm_compute; reflexivity|]. split.
    + intros Q idx W E i [H1 H2]. specialize (H2 _ (or_introl eq_refl)). vm_compute in H1. injection H1 as <- _. vm_compute in H2. vm_compute. exact H2.
    + intros Q. eexists _, _. split; [vm_compute; reflexivity|]. reflexivity.
Qed.
Print Assumptions C48_assigned_before_refuted.

(** A loop through the test of a conditional is accepted: 'if (t) { a = 0; } else { a = 1; }' with t <: a has no settled state. *)
Theorem C48_loop_through_test_refuted : exists ts n l, accepted_code ts n l = true /\
  forall Q idx W E i, ~ settled ts (module_use (isw ts) (always_code l)) Q Q W idx E i.
Proof.
  exists [{| t_var := 1; t_late := false; t_exp := EV 0 |}], 2, [KIf (EV 1) [KSet 0 (EC 0)] [KSet 0 (EC 1)]]. split; [vm_compute; reflexivity|].
  intros Q idx W E i [H1 H2]. specialize (H2 _ (or_introl eq_refl)).
  assert (K : kcycle (module_use (isw [{| t_var := 1; t_late := false; t_exp := EV 0 |}]) (always_code [KIf (EV 1) [KSet 0 (EC 0)] [KSet 0 (EC 1)]]))
     (wired [{| t_var := 1; t_late := false; t_exp := EV 0 |}] Q W) (wired [{| t_var := 1; t_late := false; t_exp := EV 0 |}] Q W) idx =
     Some (upd (wired [{| t_var := 1; t_late := false; t_exp := EV 0 |}] Q W) 0 (if truth (W 1) then 0%Z else 1%Z), idx)).
  { unfold kcycle. cbn. destruct (truth (W 1)); reflexivity. }
  rewrite K in H1. injection H1 as <- _. cbn in H2. unfold upd in H2. cbn in H2. unfold truth in H2. destruct (W 1%nat =? 0)%Z eqn:Z0; cbn in H2.
  - apply Z.eqb_eq in Z0. congruence.
  - apply Z.eqb_neq in Z0. congruence.
Qed.
Print Assumptions C48_loop_through_test_refuted.

(** A loop through an assignment in a branch is reported, but not when the variable is also assigned before the conditional (merging keeps the dependencies of
    the first assignment): 'a = 0; if (c) { a = t + 1; } b = a;' with t <: b has no settled state when c is not 0. Variables a, b, c, tracker 3. *)
Theorem C48_loop_through_branch_refuted :
  let ts := [{| t_var := 3; t_late := false; t_exp := EV 1 |}] in
  let cond := [KIf (EV 2) [KSet 0 (plus (EV 3) (EC 1))] []; KSet 1 (EV 0)] in
  accepted_code ts 4 cond = false /\ accepted_code ts 4 (KSet 0 (EC 0) :: cond) = true /\
  forall (Q : store) idx W E i, Q 2 <> 0%Z -> ~ settled ts (module_use (isw ts) (always_code (KSet 0 (EC 0) :: cond))) Q Q W idx E i.
Proof.
  cbv zeta. split; [vm_compute; reflexivity|]. split; [vm_compute; reflexivity|].
  intros Q idx W E i NZ [H1 H2]. specialize (H2 _ (or_introl eq_refl)).
  set (ts := [{| t_var := 3; t_late := false; t_exp := EV 1 |}]) in *.
  assert (K : exists E', kcycle (module_use (isw ts) (always_code [KSet 0 (EC 0); KIf (EV 2) [KSet 0 (plus (EV 3) (EC 1))] []; KSet 1 (EV 0)])) (wired ts Q W) (wired ts Q W) idx =
     Some (E', idx) /\ E' 1 = (W 3%nat + 1)%Z).
  { unfold kcycle. cbn. assert (T : truth (Q 2) = true) by (unfold truth; apply negb_true_iff; now apply Z.eqb_neq). unfold wired at 2. cbn. rewrite T. cbn.
    eexists. split; [reflexivity|]. reflexivity. }
  destruct K as (E' & K & E1). rewrite K in H1. injection H1 as <- _. unfold wtext in H2. cbn in H2. lia.
Qed.
Print Assumptions C48_loop_through_branch_refuted.

(** The dependencies of <:: trackers are forgotten even when they name trackers: 't1 <:: t2 + 1; t2 <:: t1' and 't2 <: a + 1; t1 <:: t2; a = t1;' are accepted
    and have no settled state. *)
Theorem C48_delayed_loop_refuted :
  (exists ts n, accepted ts n [] = true /\ forall Q idx W E i, ~ settled ts (circuit ts []) Q Q W idx E i) /\
  (exists ts n b, accepted ts n b = true /\ (forall k k', In k ts -> In k' ts -> t_late k = true -> t_late k' = true -> ~ In (t_var k') (evars (t_exp k))) /\
    forall Q idx W E i, ~ settled ts (circuit ts b) Q Q W idx E i).
Proof.
  split.
  - exists [{| t_var := 0; t_late := true; t_exp := plus (EV 1) (EC 1) |}; {| t_var := 1; t_late := true; t_exp := EV 0 |}], 2.
    split; [vm_compute; reflexivity|]. intros Q idx W E i [H1 H2]. pose proof (H2 _ (or_introl eq_refl)) as A. pose proof (H2 _ (or_intror (or_introl eq_refl))) as B.
    cbn in H1. injection H1 as <- _. cbn in A, B. lia.
  - exists [{| t_var := 2; t_late := false; t_exp := plus (EV 0) (EC 1) |}; {| t_var := 1; t_late := true; t_exp := EV 2 |}], 3, [(0, EV 1)].
    split; [vm_compute; reflexivity|]. split.
    + intros k k' [<-|[<-|[]]] [<-|[<-|[]]]; cbn; try discriminate. intros _ _ [X|[]]. discriminate.
    + intros Q idx W E i [H1 H2]. pose proof (H2 _ (or_introl eq_refl)) as A. pose proof (H2 _ (or_intror (or_introl eq_refl))) as B.
      cbn in H1. injection H1 as <- _. cbn in A, B. unfold upd, wired in A, B. cbn in A, B. lia.
Qed.
Print Assumptions C48_delayed_loop_refuted.

(** A loop is reported where there is none: 'a = o + 1; o = t;' with t <: a; a reads the register of o. *)
Theorem C48_false_loop_refuted : exists ts n b, accepted ts n b = false /\ flat ts = true /\ NoDup (map t_var ts) /\
  unassigned ts (circuit ts b) = true /\ late_out ts (circuit ts b) = true /\
  forall Q : store, exists W E i, settled ts (circuit ts b) Q Q W 0 E i /\ E 1 = (Q 1%nat + 1)%Z.
Proof.
  exists [{| t_var := 2; t_late := false; t_exp := EV 0 |}], 3, [(0, plus (EV 1) (EC 1)); (1, EV 2)]. split; [vm_compute; reflexivity|]. split; [reflexivity|].
  split; [repeat constructor; intros []|]. split; [reflexivity|]. split; [reflexivity|]. intros Q. exists (fun _ => (Q 1%nat + 1)%Z). eexists _, _.
  split; [split; [vm_compute; reflexivity|]|reflexivity]. intros k [<-|[]]. reflexivity.
Qed.
Print Assumptions C48_false_loop_refuted.

(** A <:: tracker of an input is not delayed: the environment changes the input between two cycles. *)
Theorem C48_delayed_input_refuted : exists ts o (Q W E : nat -> store), unassigned ts o = true /\
  (forall n, settled ts o (Q n) (Q n) (W n) 0 (E n) 0) /\ (exists k, In k ts /\ t_late k = true /\ forall n, W (S n) (t_var k) = Q (S n) 0 /\ W (S n) (t_var k) <> eval (E n) (t_exp k)).
Proof.
  exists [{| t_var := 1; t_late := true; t_exp := EV 0 |}], (circuit [{| t_var := 1; t_late := true; t_exp := EV 0 |}] []), (fun n _ => Z.of_nat n), (fun n _ => Z.of_nat n).
  exists (fun n => wired [{| t_var := 1; t_late := true; t_exp := EV 0 |}] (fun _ => Z.of_nat n) (fun _ => Z.of_nat n)). split; [reflexivity|]. split.
  - intros n. split; [reflexivity|]. intros k [<-|[]]. reflexivity.
  - eexists. split; [left; reflexivity|]. split; [reflexivity|]. intros n. split; [reflexivity|]. cbn [t_var t_exp eval]. unfold wired. cbn -[Z.of_nat]. lia.
Qed.
Print Assumptions C48_delayed_input_refuted.

(** The acceptance of a body without conditionals is a special case of the one with conditionals. *)
Lemma accepted_sets ts n b : accepted_code ts n (sets b) = accepted ts n b.
Proof.
  unfold accepted_code, accepted. destruct (wires_deps ts n ts DepModel.no_deps) as [d|]; [|reflexivity].
  assert (E : codes_deps ts n (sets b) d = body_deps ts n b d); [|now rewrite E].
  revert d. induction b as [|[x e] r IH]; intros d; [reflexivity|]. cbn [sets map codes_deps code_deps body_deps fst snd]. destruct (isw ts x); [reflexivity|].
  destruct (wupdate _ _ _ _); [apply IH|reflexivity].
Qed.
