(** C12: registers which are turned into temporaries are those whose previous value is never needed. *)
From Coq Require Import List Bool Arith ZArith Lia.
Import ListNotations.
From Verif Require Import FsmModel FsmRun FsmEmit UseModel UseProofs UseSound UseTwo UseCycle.

(** One cycle of a unit whose variables are all registers: always_before, the state [idx], always_after. *)
Definition cycle_regs (m : kmod) (Q : store) (idx : nat) : option (store * nat) := kcycle (module_use tmp0 m) Q Q idx.
(** The variables which the compiler turns into temporaries. *)
Definition made_temporary (vars : var -> bool) (m : kmod) (x : var) : bool := demoted vars (o_use (module_use tmp0 m)) x.

Lemma temp_noq vars m x : made_temporary vars m x = true -> fQ (o_use (module_use tmp0 m) x) = false.
Proof. unfold made_temporary, demoted. intros H. apply andb_true_iff in H as [_ H]. now apply negb_true_iff in H. Qed.

(** ** When the end of a cycle depends on what [x] was before the cycle, [x] stays a register. *)
Theorem C12_needed_register_kept vars m idx x Q Q' :
  unit_ok m idx = true -> (forall y, y <> x -> Q y = Q' y) ->
  match cycle_regs m Q idx, cycle_regs m Q' idx with
  | Some (D, i), Some (D', i') => i <> i' \/ exists y, y <> x /\ D y <> D' y
  | None, None => False
  | _, _ => True
  end ->
  made_temporary vars m x = false.
Proof.
  intros OK E H. destruct (made_temporary vars m x) eqn:T; [|reflexivity]. exfalso. apply temp_noq in T.
  pose proof (cycle_sound m Q Q' Q Q' idx OK) as S. unfold cycle_regs in H.
  assert (A : agr Q Q' (o_use (module_use tmp0 m)) Q Q').
  { intros y Hy. assert (y <> x) by congruence. split; now apply E. }
  specialize (S A). destruct (kcycle (module_use tmp0 m) Q Q idx) as [[D i]|]; destruct (kcycle (module_use tmp0 m) Q' Q' idx) as [[D' i']|]; try contradiction.
  destruct S as (Ei & K & _). destruct H as [H|(y & N & H)]; [congruence|]. apply H, K. now apply E.
Qed.
Print Assumptions C12_needed_register_kept.

(** ** A read which may see the value of a previous cycle: whatever follows, the variable stays a register. *)
Theorem C12_read_first_kept vars m x e r :
  k_pre m = KRead e :: r -> In x (evars e) -> made_temporary vars m x = false.
Proof.
  intros E I. destruct (made_temporary vars m x) eqn:T; [|reflexivity]. exfalso. apply temp_noq in T.
  assert (F : fQ (u1 tmp0 m x) = true).
  { unfold u1, s_pre. apply clear_mono. rewrite E, anals_cons. cbn [snd anal].
    destruct (good_all tmp0 (KRead e) ([], u_start m) (start_wf m)) as [W _]. cbn [anal snd fst] in W.
    destruct (good_lists tmp0 r ([], kread tmp0 [] e (u_start m)) W) as [_ [G _]]. apply G. cbn [snd]. clear -I.
    generalize (u_start m). induction e as [n|y|f a IH|f a IHa b IHb]; intros u; cbn [evars kread] in *.
    - destruct I.
    - destruct I as [->|[]]. rewrite uset_same. reflexivity.
    - now apply IH.
    - apply in_app_or in I as [I|I]; [apply kread_mono; now apply IHa|now apply IHb]. }
  apply mono12 in F. apply mono23 in F. apply mono3 in F. congruence.
Qed.
Print Assumptions C12_read_first_kept.

(** ** The code written once the temporaries are known is the code written when every variable is a register. *)
Theorem C12_same_code vars m idx : unit_ok m idx = true ->
  o_pre (module_use (made_temporary vars m) m) = o_pre (module_use tmp0 m) /\
  o_arms (module_use (made_temporary vars m) m) = o_arms (module_use tmp0 m) /\
  o_post (module_use (made_temporary vars m) m) = o_post (module_use tmp0 m).
Proof. intros OK. apply (second_same _ m idx OK). intros x T. now apply temp_noq in T. Qed.
Print Assumptions C12_same_code.

(** ** Runs. [ini n x]: what the temporary [x] holds when cycle [n] begins; [edge]: any effect of the clock edge on each register
    (reset, new inputs); [reidx]: any effect of the clock edge on the index of the state. *)
Definition same_behaviour (vars : var -> bool) (m : kmod) : Prop :=
  forall ini edge reidx Q1 Q2 i, (forall x, made_temporary vars m x = false -> Q1 x = Q2 x) -> forall n,
  match krun (module_use tmp0 m) tmp0 ini edge reidx n Q1 i,
        krun (module_use (made_temporary vars m) m) (made_temporary vars m) ini edge reidx n Q2 i with
  | Some (R1, i1), Some (R2, i2) => i1 = i2 /\ forall x, made_temporary vars m x = false -> R1 x = R2 x
  | None, None => True
  | _, _ => False
  end.

Lemma start_agr vars m ini Q1 Q2 : (forall x, made_temporary vars m x = false -> Q1 x = Q2 x) ->
  agr Q1 Q2 (o_use (module_use tmp0 m)) (d_start tmp0 ini Q1) (d_start (made_temporary vars m) ini Q2) /\
  forall x, made_temporary vars m x = false -> d_start tmp0 ini Q1 x = d_start (made_temporary vars m) ini Q2 x.
Proof.
  intros H. split; intros x.
  - intros F. assert (T : made_temporary vars m x = false).
    { destruct (made_temporary vars m x) eqn:T; [|reflexivity]. apply temp_noq in T. congruence. }
    unfold d_start. rewrite T. cbn [tmp0]. auto.
  - intros T. unfold d_start. rewrite T. cbn [tmp0]. auto.
Qed.

Theorem C12_temporaries_same_behaviour vars m : (forall idx, unit_ok m idx = true) -> same_behaviour vars m.
Proof.
  intros OK ini edge reidx Q1 Q2 i H. destruct (C12_same_code vars m 0 (OK 0)) as (C1 & C2 & C3).
  induction n as [|n IH]; [cbn [krun]; now split|]. cbn [krun].
  destruct (krun (module_use tmp0 m) tmp0 ini edge reidx n Q1 i) as [[R1 i1]|];
    destruct (krun (module_use (made_temporary vars m) m) (made_temporary vars m) ini edge reidx n Q2 i) as [[R2 i2]|]; try contradiction; [|exact I].
  destruct IH as [-> IH]. cbn [obind]. rewrite (kcycle_code _ _ C1 C2 C3).
  destruct (start_agr vars m (ini n) R1 R2 IH) as [A S].
  pose proof (cycle_sound m R1 R2 _ _ i2 (OK i2) A) as CS.
  destruct (kcycle (module_use tmp0 m) R1 (d_start tmp0 (ini n) R1) i2) as [[D1 j1]|];
    destruct (kcycle (module_use tmp0 m) R2 (d_start (made_temporary vars m) (ini n) R2) i2) as [[D2 j2]|]; try contradiction; [|exact I].
  destruct CS as (-> & K & _). cbn [obind]. split; [reflexivity|]. intros x T. f_equal. apply K. now apply S.
Qed.
Print Assumptions C12_temporaries_same_behaviour.

(** ** Combinational outputs and bound inputs: what they see at the end of each cycle. *)
Theorem C12_temporaries_same_outputs vars m : (forall idx, unit_ok m idx = true) ->
  forall ini edge reidx Q1 Q2 i, (forall x, made_temporary vars m x = false -> Q1 x = Q2 x) -> forall n x,
  In x (k_d m) -> assigned m x ->
  match krun (module_use tmp0 m) tmp0 ini edge reidx n Q1 i with Some (_, i1) => settled m i1 x = true | None => True end ->
  match kend (module_use tmp0 m) tmp0 ini edge reidx n Q1 i,
        kend (module_use (made_temporary vars m) m) (made_temporary vars m) ini edge reidx n Q2 i with
  | Some (E1, _), Some (E2, _) => E1 x = E2 x
  | None, None => True
  | _, _ => False
  end.
Proof.
  intros OK ini edge reidx Q1 Q2 i H n x Ix AS. destruct (C12_same_code vars m 0 (OK 0)) as (C1 & C2 & C3). unfold kend.
  pose proof (C12_temporaries_same_behaviour vars m OK ini edge reidx Q1 Q2 i H n) as B.
  destruct (krun (module_use tmp0 m) tmp0 ini edge reidx n Q1 i) as [[R1 i1]|];
    destruct (krun (module_use (made_temporary vars m) m) (made_temporary vars m) ini edge reidx n Q2 i) as [[R2 i2]|]; try contradiction; [|intros _; exact I].
  destruct B as [-> B]. intros SE. cbn [obind]. rewrite (kcycle_code _ _ C1 C2 C3).
  destruct (start_agr vars m (ini n) R1 R2 B) as [A S].
  pose proof (cycle_sound m R1 R2 _ _ i2 (OK i2) A) as CS.
  destruct (kcycle (module_use tmp0 m) R1 (d_start tmp0 (ini n) R1) i2) as [[D1 j1]|];
    destruct (kcycle (module_use tmp0 m) R2 (d_start (made_temporary vars m) (ini n) R2) i2) as [[D2 j2]|]; try contradiction; [|exact I].
  destruct CS as (-> & K & IV). destruct (made_temporary vars m x) eqn:T; [|apply K; now apply S].
  eapply after_d; [exact IV|exact SE|now apply memb_In|now apply assigned_d|now apply temp_noq in T].
Qed.
Print Assumptions C12_temporaries_same_outputs.

(** ** Example: a unit with a state machine. Variables: t 0 (temporary), c 1 (counter), o 2 (output), w 3 (partly written: register).
    state 1: t = c + 1; c = t; if (t) { w = 5; } goto 2.   state 2: t = w; o = t; goto 1. *)
Module Ex.
  Definition st1 := [KSet 0 (EB Z.add (EV 1) (EC 1)); KSet 1 (EV 0); KIf (EV 0) [KSet 3 (EC 5)] []; KIdx 2].
  Definition st2 := [KSet 0 (EV 3); KSet 2 (EV 0); KIdx 1].
  Definition m := {| k_pre := []; k_states := [(1, st1); (2, st2)]; k_post := []; k_q := fun x => Nat.eqb x 2; k_d := [] |}.
  Example ex_ok : forall idx, unit_ok m idx = true.
  Proof. intros idx. reflexivity. Qed.
  Example ex_temporaries : map (made_temporary (fun _ => true) m) [0; 1; 2; 3] = [true; false; false; false].
  Proof. reflexivity. Qed.
  (* The counter is needed: with 0 and with 1 in it, other values. *)
  Example ex_needed : exists D i D' i', cycle_regs m (fun _ => 0%Z) 1 = Some (D, i) /\
    cycle_regs m (fun x => if Nat.eqb x 1 then (-1)%Z else 0%Z) 1 = Some (D', i') /\ D 3 = 5%Z /\ D' 3 = 0%Z.
  Proof. do 4 eexists. split; [reflexivity|]. split; [reflexivity|]. split; reflexivity. Qed.
  (* Whatever the temporary holds at the beginning of each cycle, 5 is output after two cycles. *)
  Example ex_run : match krun (module_use (made_temporary (fun _ => true) m) m) (made_temporary (fun _ => true) m)
                              (fun n _ => Z.of_nat n + 77)%Z (fun _ _ v => v) (fun _ i => i) 2 (fun _ => 0%Z) 1 with
                   | Some (R, i) => R 1 = 1%Z /\ R 2 = 5%Z /\ i = 1
                   | None => False end.
  Proof. vm_compute. auto. Qed.
End Ex.
(** Example: no state machine; always_before { if (a) { t = 1; } else { t = 2; } o = t; }, t combinational output as well. *)
Module ExC.
  Definition m := {| k_pre := [KIf (EV 1) [KSet 0 (EC 1)] [KSet 0 (EC 2)]; KSet 2 (EV 0)]; k_states := []; k_post := [];
                     k_q := fun x => Nat.eqb x 2 || Nat.eqb x 1; k_d := [0] |}.
  Example ex_ok : forall idx, unit_ok m idx = true.
  Proof. intros idx. reflexivity. Qed.
  Example ex_temp : made_temporary (fun _ => true) m 0 = true /\ assigned m 0 /\ forall i, settled m i 0 = true.
  Proof. split; [reflexivity|]. split; [left; now left|reflexivity]. Qed.
  (* Without the else branch, a register. *)
  Definition m' := {| k_pre := [KIf (EV 1) [KSet 0 (EC 1)] []; KSet 2 (EV 0)]; k_states := []; k_post := [];
                      k_q := fun x => Nat.eqb x 2 || Nat.eqb x 1; k_d := [0] |}.
  Example ex_reg : made_temporary (fun _ => true) m' 0 = false.
  Proof. reflexivity. Qed.
End ExC.

(** * Where registers are turned into temporaries although their previous value is needed *)
(** ** always_after block reading a variable assigned by every state, once the algorithm has terminated:
    the termination state is not among the branches which are merged (8403-8411, 8414).
    v 0, o 1: { v = 1; ++: v = 2; } always_after { o = v; }: after termination o no longer holds 2. *)
Definition m_term := {| k_pre := []; k_states := [(1, [KSet 0 (EC 1); KIdx 2]); (2, [KSet 0 (EC 2); KIdx 0])];
                        k_post := [KSet 1 (EV 0)]; k_q := fun x => Nat.eqb x 1; k_d := [] |}.
Theorem C12_after_termination_refuted :
  made_temporary (fun _ => true) m_term 0 = true /\
  (forall Q D, exists D' i, kcycle (module_use tmp0 m_term) Q D 0 = Some (D', i) /\ D' 1 = D 0) /\
  ~ same_behaviour (fun _ => true) m_term.
Proof.
  split; [reflexivity|]. split.
  - intros Q D. do 2 eexists. split; reflexivity.
  - intros H. specialize (H (fun _ _ => 0%Z) (fun _ _ v => v) (fun _ i => i) (fun _ => 0%Z) (fun _ => 0%Z) 1 (fun _ _ => eq_refl) 3).
    vm_compute in H. destruct H as [_ H]. specialize (H 1 eq_refl). discriminate H.
Qed.
Print Assumptions C12_after_termination_refuted.

(** ** A loop followed by a step: only the body is merged (9008-9015), not the exit of the loop.
    c 2 input: { while (c) { v = 1; } ++: v = 2; ... } always_after { o = v; }: in the cycle which leaves the loop o is not the last v. *)
Definition m_loop := {| k_pre := []; k_states := [(1, [KWhile (EV 2) [KSet 0 (EC 1)] 2]); (2, [KSet 0 (EC 2); KIdx 2])];
                        k_post := [KSet 1 (EV 0)]; k_q := fun x => Nat.eqb x 1 || Nat.eqb x 2; k_d := [] |}.
Theorem C12_loop_exit_refuted : made_temporary (fun _ => true) m_loop 0 = true /\ ~ same_behaviour (fun _ => true) m_loop.
Proof.
  split; [reflexivity|]. intros H.
  specialize (H (fun _ _ => 0%Z) (fun n x v => if Nat.eqb x 2 then 0%Z else v) (fun _ i => i) (fun x => if Nat.eqb x 2 then 1%Z else 0%Z) (fun x => if Nat.eqb x 2 then 1%Z else 0%Z) 1 (fun _ _ => eq_refl) 2).
  vm_compute in H. destruct H as [_ H]. specialize (H 1 eq_refl). discriminate H.
Qed.
Print Assumptions C12_loop_exit_refuted.

(** ** Assigning a member of a bitfield: the Q side is not recorded as used (7434-7471, unlike part select 7477-7507).
    x 0 of two bits hi, lo: { Bf(x).hi = 1; ++: Bf(x).lo = 1; o = x; }: hi is lost. *)
Definition set_hi (x v : Z) : Z := (x mod 2 + 2 * v)%Z.
Definition set_lo (x v : Z) : Z := (2 * (x / 2) + v)%Z.
Definition m_field := {| k_pre := []; k_states := [(1, [KField 0 set_hi (EC 1); KIdx 2]); (2, [KField 0 set_lo (EC 1); KSet 1 (EV 0); KIdx 1])];
                         k_post := []; k_q := fun x => Nat.eqb x 1; k_d := [] |}.
Theorem C12_bitfield_member_refuted : made_temporary (fun _ => true) m_field 0 = true /\ ~ same_behaviour (fun _ => true) m_field.
Proof.
  split; [reflexivity|]. intros H.
  specialize (H (fun _ _ => 0%Z) (fun _ _ v => v) (fun _ i => i) (fun _ => 0%Z) (fun _ => 0%Z) 1 (fun _ _ => eq_refl) 2).
  vm_compute in H. destruct H as [_ H]. specialize (H 1 eq_refl). discriminate H.
Qed.
Print Assumptions C12_bitfield_member_refuted.
(** The same with part selects: a register. *)
Definition m_part := {| k_pre := []; k_states := [(1, [KPart 0 (fun x _ => x) set_hi (EC 1) (EC 1); KIdx 2]); (2, [KPart 0 (fun x _ => x) set_lo (EC 0) (EC 1); KSet 1 (EV 0); KIdx 1])];
                        k_post := []; k_q := fun x => Nat.eqb x 1; k_d := [] |}.
Example part_register : made_temporary (fun _ => true) m_part 0 = false /\ forall i, unit_ok m_part i = true.
Proof. split; reflexivity. Qed.
