(** C16: subroutines return to their caller. *)
From Coq Require Import List Bool Arith ZArith Lia.
Import ListNotations.
From Verif Require Import FsmModel FsmEmit FsmRenum FsmArms FsmSource FsmRun FsmSkip SubModel SubProofs SubGather SubLink.

(** * Calls and returns follow a stack, in every program *)
(** [mrun]: executions of the blocks with the registers holding the caller ids. [srun]: executions where a call pushes the block that follows it and a
    return continues with the block on the top of the stack; the registers are not used. Every execution with the registers is an execution with the
    stack: same indices, same values. Subroutines may call subroutines, to any depth, without recursion ([fairs]). *)
Theorem C16_stack_partial : forall caller save rank fuel p s sub g r e inp,
  (forall x y, save x = save y -> x = y) -> (forall x, save x <> caller) -> fairs caller save rank false None p ->
  csetup caller save fuel p = Some (s, sub) -> generate_states fuel s = Some (g, r) -> r_sid r 0 = Some e ->
  (forall t D x, reg caller save x -> inp t D x = D x) -> (forall t D D', eqv caller save D D' -> eqv caller save (inp t D) (inp t D')) ->
  forall n s0 D i, mrun g (Jmp fuel g r (g_last s)) (fun i b => r_sid r b = Some i) inp s0 e n (D, i) ->
  exists S k, srun g (Jmp fuel g r (g_last s)) (fun i b => r_sid r b = Some i) inp s0 e n (S, i) k /\ eqv caller save D S.
Proof.
  intros caller save rank fuel p s sub g r e inp SI SC F H G E IR IE n s0 D i M.
  destruct (setup_ok _ _ rank _ _ _ _ H F) as [WF S0]. destruct (generate_ren _ _ _ _ _ G E) as [g0 R].
  eapply (stack_run caller save g sub rank); try eassumption.
  - eapply subs_ext; [exact WF|exact (generate_ends _ _ _ _ G)].
  - intros j b b' X Y. exact (n_inj _ _ _ R b b' j X Y).
  - intros x j X N. eapply jump_skips; eassumption.
  - destruct (n_sid _ _ _ R _ _ E) as [_ [_ X]]. lia.
Qed.

(** * The machines written *)
(** Programs made of assignments, steps, calls and returns: each cycle of the machine is a cycle of the execution with the stack. *)
Theorem C16_machine_partial : forall caller save rank fuel p m inp,
  (forall x y, save x = save y -> x = y) -> (forall x, save x <> caller) -> fairs caller save rank false None p -> forallb line p = true ->
  ccompile caller save fuel [] p = Some m ->
  (forall t D x, reg caller save x -> inp t D x = D x) -> (forall t D D', eqv caller save D D' -> eqv caller save (inp t D) (inp t D')) ->
  exists s sub g r, CChain caller save fuel [] p m s sub g r /\
  forall n s0 D i, runs m inp (fun _ s => s) n s0 = Some (D, i) -> (forall k, k < n -> forall D', runs m inp (fun _ s => s) k s0 <> Some (D', 0)) ->
  exists S k, srun g (Jmp fuel g r (g_last s)) (fun i b => r_sid r b = Some i) inp s0 (f_entry m) n (S, i) k /\ eqv caller save D S.
Proof.
  intros caller save rank fuel p m inp SI SC F L C IR IE. destruct (ccompile_chain _ _ _ _ _ _ C) as [s [sub [g [r CH]]]]. exists s, sub, g, r. split; [exact CH|].
  intros n s0 D i X Z. eapply (C16_stack_partial caller save rank fuel p s sub g r); try eassumption; [apply CH|apply CH|apply CH|].
  revert D i X. induction n as [|n IH]; intros D i X; cbn [runs] in X; [injection X as <- <-; constructor|].
  apply obind_some in X. destruct X as [[D1 i1] [X1 X2]].
  assert (N : i1 <> 0) by (intros ->; exact (Z n (Nat.lt_succ_diag_r n) D1 X1)).
  assert (IH' : mrun g (Jmp fuel g r (g_last s)) (fun i b => r_sid r b = Some i) inp s0 (f_entry m) n (D1, i1)).
  { apply IH; [|exact X1]. intros k Hk. apply Z. lia. }
  unfold cycle in X2. destruct (Nat.eqb_spec i1 0); [contradiction|]. apply obind_some in X2. destruct X2 as [code [A X2]]. apply some_inj in X2.
  destruct (line_arm _ _ _ _ _ _ _ _ _ _ L CH (inp n D1) (inp n D1) i1 code (fun x _ => eq_refl) (arm_of_in _ _ _ A)) as [b [B1 B2]].
  eapply mr_S; [exact IH'|exact N|exact B1|]. rewrite <- X2. exact B2.
Qed.

(** The registers give calls different numbers, and a return selects the calls of its own subroutine only. *)
Theorem C16_ids : forall caller save rank fuel p s sub, fairs caller save rank false None p -> csetup caller save fuel p = Some (s, sub) ->
  (forall b b' c c' sv sv' cid go go' rt rt', b_end (g_blk s b) = ECall c sv cid go rt -> b_end (g_blk s b') = ECall c' sv' cid go' rt' -> b = b') /\
  (forall b c rets, b_end (g_blk s b) = ERet c rets -> exists t, sub b = Some t /\ forall cid rt, (exists sv, In (cid, rt, sv) rets) <->
     exists b' c' sv' go, b_end (g_blk s b') = ECall c' sv' cid go rt /\ sub go = Some t).
Proof.
  intros caller save rank fuel p s sub F H. destruct (setup_ok _ _ rank _ _ _ _ H F) as [WF S0]. split; [apply (u_id _ _ _ _ _ WF)|].
  intros b c rets E. destruct (u_ret _ _ _ _ _ WF _ _ _ E) as [_ [t [T1 [_ T2]]]]. exists t. split; [exact T1|]. intros cid rt. split.
  - intros [sv X]. apply T2 in X. tauto.
  - intros X. eexists. apply T2. split; [reflexivity|exact X].
Qed.

(** Two subroutines, one calling the other twice, both called from the algorithm. *)
Definition inc (x : var) : cst := CAssign x (EB Z.add (EV x) (EC 1)).
Definition q1 : list cst :=
  [ CSub 1 [ inc 1 ]; CSub 2 [ inc 2; CCall 1 [] []; CStep; CCall 1 [(6, EV 2)] [(7, EV 1)]; inc 3 ]; CCall 1 [] []; inc 4; CCall 2 [] []; inc 5 ].
Definition caller0 : var := 100.
Definition save0 (n : nat) : var := 101 + n.
Definition closed0 : nat -> store -> store := fun _ s => s.
Definition obs (n : nat) (r : option (store * nat)) : option (list Z * nat) := match r with Some (s, i) => Some (map s (seq 0 n), i) | None => None end.
Lemma save0_inj : forall x y, save0 x = save0 y -> x = y.
Proof. unfold save0. intros. lia. Qed.
Lemma save0_caller : forall x, save0 x <> caller0.
Proof. unfold save0, caller0. intros. lia. Qed.
Lemma low_user x : x < 100 -> ~ reg caller0 save0 x.
Proof. unfold reg, caller0, save0. intros L [H|[s H]]; lia. Qed.
Lemma inc_fair k l x : x < 100 -> fair caller0 save0 (fun n => n) k l (inc x).
Proof. intros L. split; [now apply low_user|]. intros y [ <-|[]]. now apply low_user. Qed.
Lemma users_nil : users caller0 save0 [].
Proof. intros x e []. Qed.
Lemma users_one x y : x < 100 -> y < 100 -> users caller0 save0 [(x, EV y)].
Proof. intros X Y z e [[= <- <-]|[]]. split; [now apply low_user|]. intros u [ <-|[]]. now apply low_user. Qed.
Ltac fair_tac := repeat match goal with
  | |- fair _ _ _ _ _ (inc _) => apply inc_fair; lia
  | |- fair _ _ _ _ _ (CCall _ _ _) => split; [|split]
  | |- fair _ _ _ _ _ (CSub _ _) => rewrite fair_sub
  | |- fair _ _ _ _ _ CStep => exact I
  | |- fair _ _ _ _ _ (CFwd _) => exact I
  | |- fairs _ _ _ _ _ _ => cbn [fairs]
  | |- users _ _ [] => apply users_nil
  | |- users _ _ [_] => apply users_one; lia
  | |- forall s, None = Some s -> _ => intros ? [=]
  | |- forall s, Some _ = Some s -> _ => intros ? [= <-]; lia
  | |- _ /\ _ => split
  | |- True => exact I
  end.
Example C16_ex_fair : fairs caller0 save0 (fun n => n) false None q1 /\ forallb line q1 = true.
Proof. split; [|reflexivity]. unfold q1. fair_tac. Qed.
Example C16_ex_runs : exists m, ccompile caller0 save0 200 [] q1 = Some m /\ obs 8 (runs m closed0 closed0 10 (fun _ => 0%Z)) = Some ([0; 3; 1; 1; 1; 1; 1; 3]%Z, 0).
Proof. eexists. split; [vm_compute; reflexivity|]. vm_compute. auto. Qed.

(** * Refutations *)
(** A subroutine that is the last thing of the algorithm and ends with a step: its return is taken for the end of the algorithm, which stops instead of
    returning. x4 is never incremented. *)
Definition q2 : list cst := [ CFwd 1; CCall 1 [] []; inc 4; CSub 1 [ inc 1; CStep ] ].
Theorem C16_last_refuted : exists p m, fairs caller0 save0 (fun n => n) false None p /\ forallb line p = true /\ ccompile caller0 save0 200 [] p = Some m /\
  p = [ CFwd 1; CCall 1 [] []; inc 4; CSub 1 [ inc 1; CStep ] ] /\
  (exists D, runs m closed0 closed0 2 (fun _ => 0%Z) = Some (D, 0)) /\
  forall n, 2 <= n -> exists D, runs m closed0 closed0 n (fun _ => 0%Z) = Some (D, 0) /\ D 1 = 1%Z /\ D 4 = 0%Z.
Proof.
  exists q2. eexists. split; [unfold q2; fair_tac|]. split; [reflexivity|]. split; [vm_compute; reflexivity|]. split; [reflexivity|]. split; [eexists; vm_compute; reflexivity|].
  intros n Hn. induction Hn as [|n Hn [D [R [D1 D4]]]].
  - eexists. split; [reflexivity|]. vm_compute. auto.
  - exists D. cbn [runs]. rewrite R. cbn. auto.
Qed.

(** Recursion is accepted when the subroutine is declared first, and the calls then never return to the algorithm: the single register of the subroutine
    only remembers the last caller. x2 is incremented forever, x4 never. *)
Definition q3 : list cst :=
  [ CFwd 1; CSub 1 [ inc 1; CIf (EU (fun v => if Z.ltb v 3 then 1%Z else 0%Z) (EV 1)) [ CCall 1 [] [] ]; inc 2 ]; CCall 1 [] []; inc 4 ].
Definition code3 : list vst := [ VSet 2 (VB Z.add (VQ 2) (VC 1)); VCase (VQ 100) [ (Some 0%Z, [ VIdx 4 ]); (Some 1%Z, [ VIdx 3; VSet 100 (VQ 102) ]); (None, [ VIdx 0 ]) ] ].
Lemma code3_runs (D : store) : D 100 = 1%Z -> vexecs D code3 (D, 3) = (upd (upd D 2 (Z.add (D 2) 1)) 100 (D 102), 3).
Proof. intros H. unfold code3, vexecs. cbn [fold_left]. rewrite vexec_case. cbn [veval]. rewrite H. reflexivity. Qed.
Theorem C16_recursion_refuted : exists p m i, ccompile caller0 save0 200 [] p = Some m /\
  p = [ CFwd 1; CSub 1 [ inc 1; CIf (EU (fun v => if Z.ltb v 3 then 1%Z else 0%Z) (EV 1)) [ CCall 1 [] [] ]; inc 2 ]; CCall 1 [] []; inc 4 ] /\ i <> 0 /\
  forall n, 6 <= n -> exists D, runs m closed0 closed0 n (fun _ => 0%Z) = Some (D, i) /\ D 4 = 0%Z /\ D 2 = Z.of_nat (n - 4).
Proof.
  set (m0 := match ccompile caller0 save0 200 [] q3 with Some m => m | None => {| f_arms := []; f_entry := 0; f_max := 0 |} end).
  exists q3, m0, 3. split; [unfold m0; destruct (ccompile caller0 save0 200 [] q3) eqn:E; [reflexivity|vm_compute in E; discriminate]|]. split; [reflexivity|]. split; [discriminate|].
  assert (A : arm_of 3 (f_arms m0) = Some code3) by (vm_compute; reflexivity).
  assert (ST : forall n, 6 <= n -> exists D, runs m0 closed0 closed0 n (fun _ => 0%Z) = Some (D, 3) /\ D 4 = 0%Z /\ D 2 = Z.of_nat (n - 4) /\ D 100 = 1%Z /\ D 102 = 1%Z).
  { intros n Hn. induction Hn as [|n Hn [D [R [D4 [D2 [DC DS]]]]]].
    - eexists. split; [vm_compute; reflexivity|]. vm_compute. auto.
    - cbn [runs]. rewrite R. cbn [obind]. unfold closed0. unfold cycle. cbn [Nat.eqb]. rewrite A. cbn [obind].
      rewrite (code3_runs D DC). eexists. split; [reflexivity|]. unfold upd. cbn [Nat.eqb]. rewrite D2. split; [exact D4|]. split; [lia|]. auto. }
  intros n Hn. destruct (ST n Hn) as [D [R [D4 [D2 _]]]]. exists D. auto.
Qed.

Print Assumptions C16_stack_partial.
Print Assumptions C16_machine_partial.
Print Assumptions C16_ids.
Print Assumptions C16_last_refuted.
Print Assumptions C16_recursion_refuted.
