(** Properties of the ports of instances. *)
From Coq Require Import List Bool Arith ZArith Lia.
Import ListNotations.
From Verif Require Import FsmModel FsmRun BindModel BindDeps BindProofs BindTime.

Definition nopin (_ : FsmModel.var) : bool := false.
Definition add := EB Z.add.

(** * Combinational loops through instances. *)

(** An accepted block with accepted instances settles to exactly one set of values in every cycle, whatever the instantiated units compute.
    [_partial]: no output(!) (the check is asked not to be made), a variable is not assigned again in another branch, tests read variables that are neither assigned in the block nor
    combinational outputs, callable and <reginputs> instances have no combinational output or no <: on an assigned variable or a wire. Each of the last three is needed (below and C15). *)
Theorem C15_instances_settle_partial ks body pin n : NoDup (wires ks) ->
  (forall k o, In k ks -> In o (n_outs k) -> out_nocheck o = false) ->
  (forall k p, In k ks -> In p (n_ins k) -> in_own p < n /\ match in_bnd p with Some (CL x) | Some (CQ x) => x < n | None => True end) ->
  (forall x, In x (wires ks) -> x < n) -> (forall x, In x (asgs body) -> x < n) -> (forall x, In x (rdss body) -> x < n) ->
  separates [] body = true ->
  (forall y, In y (tsts body) -> ~ In y (asgs body) /\ forall k o, In k ks -> In o (n_outs k) -> In y (out_names o) -> skipped k = false -> out_comb o = false) ->
  (forall k, In k ks -> skipped k = true -> (forall o, In o (n_outs k) -> out_comb o = false) \/
     (forall p x, In p (n_ins k) -> in_bnd p = Some (CL x) -> ~ In x (asgs body) /\ iswire ks x = false)) ->
  accepted ks body pin n = true ->
  forall Q C, exists W E, settled ks body Q C W E /\
    forall W' E', settled ks body Q C W' E' -> (forall x, iswire ks x = true -> W' x = W x) /\ forall x, E' x = E x.
Proof.
  intros N CK RI RW RA RR SP QT SK AC Q C. apply (settles ks body n pin); auto; [split; assumption|].
  intros y Iy. destruct (QT y Iy) as [A B]. split; [exact A|]. intros (k & Ik & Sk & Io). apply comb_outs_spec in Io. destruct Io as (u & Iu & Cu & Yu).
  specialize (B k u Ik Iu Yu Sk). unfold checked in Cu. rewrite B in Cu. discriminate.
Qed.
Print Assumptions C15_instances_settle_partial.

(** Two instances after one another, with bindings and the dot syntax:
      first: i <: 0, output! :> 1;  second: dot syntax, output! read with the dot syntax;
      if (5) { 0 = 6 } else { 0 = 6 + 1 }  second.i = 1;  7 = second.o + 7. *)
Definition u_inc : store -> list Z -> store := unit_of [20] [Put 10 (add (EV 20) (EC 1))].
Definition k_first : inst := {| n_call := false; n_reg := false; n_ins := [{| in_own := 2; in_bnd := Some (CL 0) |}];
  n_outs := [{| out_var := 10; out_comb := true; out_nocheck := false; out_own := 8; out_bnd := Some 1 |}]; n_unit := u_inc |}.
Definition k_second : inst := {| n_call := false; n_reg := false; n_ins := [{| in_own := 3; in_bnd := None |}];
  n_outs := [{| out_var := 10; out_comb := true; out_nocheck := false; out_own := 4; out_bnd := None |}]; n_unit := u_inc |}.
Definition b_two : list cmd := [Cond (EV 5) [Put 0 (EV 6)] []; Put 3 (EV 1); Put 7 (add (EV 4) (EC 5))].
Example C15_instances_settle_ex : accepted [k_first; k_second] b_two nopin 9 = true /\
  forall Q C, exists W E, settled [k_first; k_second] b_two Q C W E /\
    E 7 = (if truth (Q 5%nat) then Q 6%nat + 7 else Q 0%nat + 7)%Z /\
    forall W' E', settled [k_first; k_second] b_two Q C W' E' -> (forall x, iswire [k_first; k_second] x = true -> W' x = W x) /\ forall x, E' x = E x.
Proof.
  split; [vm_compute; reflexivity|]. intros Q C.
  assert (T : exists W E, settled [k_first; k_second] b_two Q C W E /\
    forall W' E', settled [k_first; k_second] b_two Q C W' E' -> (forall x, iswire [k_first; k_second] x = true -> W' x = W x) /\ forall x, E' x = E x).
  { apply (C15_instances_settle_partial _ _ nopin 9).
    - vm_compute. repeat constructor; cbn [In]; intuition discriminate.
    - intros k o [<-|[<-|[]]] [<-|[]]; reflexivity.
    - intros k p [<-|[<-|[]]] [<-|[]]; cbn; lia.
    - vm_compute. intuition lia.
    - vm_compute. intuition lia.
    - vm_compute. intuition lia.
    - reflexivity.
    - intros y [<-|[]]. split; [vm_compute; intuition discriminate|]. intros k o [<-|[<-|[]]] [<-|[]]; cbn; intuition discriminate.
    - intros k [<-|[<-|[]]]; discriminate.
    - vm_compute; reflexivity. }
  destruct T as (W & E & S & U). exists W, E. split; [exact S|]. split; [|exact U].
  destruct S as [S1 S2].
  pose proof (S2 0 k_first _ 1 eq_refl (or_introl eq_refl) (or_intror (or_introl eq_refl))) as A. pose proof (S2 1 k_second _ 4 eq_refl (or_introl eq_refl) (or_introl eq_refl)) as B.
  change (W 1%nat = E 0%nat + 1)%Z in A. change (W 4%nat = E 3%nat + 1)%Z in B.
  pose proof (S1 7) as E7. pose proof (S1 3) as E3. pose proof (S1 0) as E0.
  unfold b_two in E7, E3, E0. cbn [exec exec1 eval] in E7, E3, E0. change (wired [k_first; k_second] Q W 5) with (Q 5) in *.
  destruct (truth (Q 5)) eqn:T; change (E 7%nat = W 4%nat + 5)%Z in E7; change (E 3 = W 1) in E3.
  - change (E 0 = Q 6) in E0. lia.
  - change (E 0 = Q 0) in E0. lia.
Qed.
(** The same with the output of the second connected back to the input of the first is refused, through a binding or the dot syntax. *)
Example C15_instances_refused : accepted [k_first; k_second] [Put 3 (EV 1); Put 0 (EV 4)] nopin 9 = false /\
  accepted [{| n_call := false; n_reg := false; n_ins := [{| in_own := 2; in_bnd := Some (CL 0) |}];
    n_outs := [{| out_var := 10; out_comb := true; out_nocheck := false; out_own := 8; out_bnd := Some 0 |}]; n_unit := u_inc |}] [] nopin 9 = false.
Proof. split; vm_compute; reflexivity. Qed.

(** ** Missed loops. *)

(** The instance of a callable unit, i <: 0 and o read with the dot syntax: 0 = inst.o is accepted while no values are consistent. *)
Definition k_loop (call reg : bool) : inst := {| n_call := call; n_reg := reg; n_ins := [{| in_own := 1; in_bnd := Some (CL 0) |}];
  n_outs := [{| out_var := 10; out_comb := true; out_nocheck := false; out_own := 2; out_bnd := None |}]; n_unit := u_inc |}.
Lemma loop_unsettled call reg Q C W E : ~ settled [k_loop call reg] [Put 0 (EV 2)] Q C W E.
Proof.
  intros [S1 S2]. pose proof (S2 0 (k_loop call reg) _ 2 eq_refl (or_introl eq_refl) (or_introl eq_refl)) as A. change (W 2%nat = E 0%nat + 1)%Z in A.
  pose proof (S1 0) as B. change (E 0 = W 2) in B. lia.
Qed.
Theorem C15_callable_instance_refuted : exists ks body n, (forall k, In k ks -> n_call k = true) /\ accepted ks body nopin n = true /\ forall Q C W E, ~ settled ks body Q C W E.
Proof.
  exists [k_loop true false], [Put 0 (EV 2)], 3. split; [intros k [<-|[]]; reflexivity|]. split; [vm_compute; reflexivity|]. intros Q C W E. apply loop_unsettled.
Qed.
Print Assumptions C15_callable_instance_refuted.
(** With <reginputs> on a unit that is not callable. *)
Theorem C15_reginputs_instance_refuted : exists ks body n, (forall k, In k ks -> n_call k = false /\ n_reg k = true) /\ accepted ks body nopin n = true /\
  forall Q C W E, ~ settled ks body Q C W E.
Proof.
  exists [k_loop false true], [Put 0 (EV 2)], 3. split; [intros k [<-|[]]; split; reflexivity|]. split; [vm_compute; reflexivity|]. intros Q C W E. apply loop_unsettled.
Qed.
Print Assumptions C15_reginputs_instance_refuted.
(** Without either, the same loop is refused. *)
Example C15_instance_loop_refused : accepted [k_loop false false] [Put 0 (EV 2)] nopin 3 = false.
Proof. vm_compute; reflexivity. Qed.

(** The output is tested: if (inst.o) { 0 = 0 } else { 1 = 0 } with i <: 0 and o = i. *)
Definition k_copy : inst := {| n_call := false; n_reg := false; n_ins := [{| in_own := 1; in_bnd := Some (CL 0) |}];
  n_outs := [{| out_var := 10; out_comb := true; out_nocheck := false; out_own := 2; out_bnd := None |}]; n_unit := unit_of [20] [Put 10 (EV 20)] |}.
Theorem C15_tested_output_refuted : exists ks body n, (forall k, In k ks -> skipped k = false) /\ accepted ks body nopin n = true /\ forall Q C W E, ~ settled ks body Q C W E.
Proof.
  exists [k_copy], [Cond (EV 2) [Put 0 (EC 0)] [Put 0 (EC 1)]], 3. split; [intros k [<-|[]]; reflexivity|]. split; [vm_compute; reflexivity|]. intros Q C W E [S1 S2].
  pose proof (S2 0 k_copy _ 2 eq_refl (or_introl eq_refl) (or_introl eq_refl)) as A. change (W 2 = E 0) in A.
  pose proof (S1 0) as B. cbn [exec exec1 eval] in B. change (wired [k_copy] Q W 2) with (W 2) in B. rewrite A in B.
  destruct (truth (E 0)) eqn:T; [change (E 0 = 0%Z) in B|change (E 0 = 1%Z) in B]; rewrite B in T; discriminate.
Qed.
Print Assumptions C15_tested_output_refuted.

(** ** Refused without a loop. *)

(** acc = acc + v, with v bound to the output! of an instance whose input is bound to another register: refused, while whatever the unit computes the values are unique. *)
Definition k_any (u : store -> list Z -> store) : inst := {| n_call := false; n_reg := false; n_ins := [{| in_own := 1; in_bnd := Some (CL 3) |}];
  n_outs := [{| out_var := 10; out_comb := true; out_nocheck := false; out_own := 2; out_bnd := Some 4 |}]; n_unit := u |}.
Theorem C15_accumulate_bound_output_refuted : exists body n, forall u, accepted [k_any u] body nopin n = false /\
  forall Q C, exists W E, settled [k_any u] body Q C W E /\
    forall W' E', settled [k_any u] body Q C W' E' -> (forall x, iswire [k_any u] x = true -> W' x = W x) /\ forall x, E' x = E x.
Proof.
  exists [Put 0 (add (EV 0) (EV 4))], 5. intros u. split; [vm_compute; reflexivity|]. intros Q C.
  set (v := u (C 0) [Q 3] 10). exists (fun _ => v), (exec [Put 0 (add (EV 0) (EV 4))] (wired [k_any u] Q (fun _ => v))).
  assert (S0 : settled [k_any u] [Put 0 (add (EV 0) (EV 4))] Q C (fun _ => v) (exec [Put 0 (add (EV 0) (EV 4))] (wired [k_any u] Q (fun _ => v)))).
  { split; [reflexivity|]. intros [|[|i]] k o x H; try discriminate. injection H as <-. intros [<-|[]] _. reflexivity. }
  split; [exact S0|]. intros W' E' [S1 S2].
  assert (Wx : forall x, iswire [k_any u] x = true -> W' x = v).
  { assert (E3 : E' 3 = Q 3) by (rewrite S1; reflexivity).
    assert (G : outval Q C E' 0 (k_any u) {| out_var := 10; out_comb := true; out_nocheck := false; out_own := 2; out_bnd := Some 4 |} = v).
    { unfold outval, given. cbn [out_comb n_ins k_any map out_var n_unit]. unfold in_side. cbn [in_bnd side]. rewrite E3. reflexivity. }
    intros x I. apply iswire_In in I. destruct I as [<-|[<-|[]]]; rewrite <- G; refine (S2 0 (k_any u) _ _ eq_refl (or_introl eq_refl) _); cbn; auto. }
  split; [exact Wx|]. intros x. rewrite S1. apply exec_ext. intros z. unfold wired. destruct (iswire [k_any u] z) eqn:I; [now apply Wx|reflexivity].
Qed.
Print Assumptions C15_accumulate_bound_output_refuted.
(** The same with the dot syntax is accepted. *)
Example C15_accumulate_dot_ex : forall u, accepted [k_any u] [Put 0 (add (EV 0) (EV 2))] nopin 5 = true.
Proof. intros. vm_compute. reflexivity. Qed.

(** inst.i = b; b = inst.o; from a register b: refused, while the values are unique. *)
Definition k_dot (u : store -> list Z -> store) : inst := {| n_call := false; n_reg := false; n_ins := [{| in_own := 1; in_bnd := None |}];
  n_outs := [{| out_var := 10; out_comb := true; out_nocheck := false; out_own := 2; out_bnd := None |}]; n_unit := u |}.
Theorem C15_register_through_instance_refuted : exists body n, forall u, accepted [k_dot u] body nopin n = false /\
  forall Q C, exists W E, settled [k_dot u] body Q C W E /\
    forall W' E', settled [k_dot u] body Q C W' E' -> (forall x, iswire [k_dot u] x = true -> W' x = W x) /\ forall x, E' x = E x.
Proof.
  exists [Put 1 (EV 0); Put 0 (EV 2)], 3. intros u. split; [vm_compute; reflexivity|]. intros Q C.
  set (v := u (C 0) [Q 0] 10). exists (fun _ => v), (exec [Put 1 (EV 0); Put 0 (EV 2)] (wired [k_dot u] Q (fun _ => v))).
  split. { split; [reflexivity|]. intros [|[|i]] k o x H; try discriminate. injection H as <-. intros [<-|[]] _. reflexivity. }
  intros W' E' [S1 S2].
  assert (Wx : forall x, iswire [k_dot u] x = true -> W' x = v).
  { assert (E1 : E' 1 = Q 0) by (rewrite S1; reflexivity).
    intros x I. apply iswire_In in I. destruct I as [<-|[]]. change (W' 2 = v). rewrite (S2 0 (k_dot u) _ 2 eq_refl (or_introl eq_refl) (or_introl eq_refl)).
    unfold outval, given. cbn [out_comb n_ins k_dot map out_var n_unit]. unfold in_side. change (u (C 0) [E' 1] 10 = v). rewrite E1. reflexivity. }
  split; [exact Wx|]. intros x. rewrite S1. apply exec_ext. intros z. unfold wired. destruct (iswire [k_dot u] z) eqn:I; [now apply Wx|reflexivity].
Qed.
Print Assumptions C15_register_through_instance_refuted.

(** * Latencies, learn-silice/AlgoInOuts.md. *)

(** An instance computing an output from one of its inputs: from the value assigned to the variable in cycle [t] to the variable of the output. *)
Theorem C50_latency ks body pin f : trace ks body pin f -> late_ok ks pin = true -> forall i k j p o y g,
  nth_error ks i = Some k -> nth_error (n_ins k) j = Some p -> In o (n_outs k) -> y = out_own o \/ out_bnd o = Some y ->
  (forall q vs, length vs = length (n_ins k) -> n_unit k q vs (out_var o) = g (nth j vs 0%Z)) -> forall t x,
  (in_bnd p = Some (CL x) -> out_comb o = false -> y_W (f (t + 1)) y = g (y_E (f t) x)) /\
  (in_bnd p = Some (CL x) -> out_comb o = true -> y_W (f t) y = g (y_E (f t) x)) /\
  (in_bnd p = Some (CQ x) -> out_comb o = false -> y_W (f (t + 2)) y = g (y_E (f t) x)) /\
  (in_bnd p = Some (CQ x) -> out_comb o = true -> y_W (f (t + 1)) y = g (y_E (f t) x)).
Proof.
  intros Tr LO i k j p o y g Hi Hj Io Hy U t x.
  assert (Y : In y (out_names o)). { unfold out_names. destruct Hy as [->|H]; [now left|rewrite H; right; now left]. }
  assert (H : forall c b, out_comb o = b -> in_bnd p = Some c -> hop ks c y b g) by (intros c b Cb B; exists i, k, j, p, o; repeat split; assumption).
  assert (L : in_bnd p = Some (CQ x) -> pin x = false /\ iswire ks x = false).
  { intros B. unfold late_ok in LO. rewrite forallb_forall in LO. specialize (LO k (nth_error_In _ _ Hi)). rewrite forallb_forall in LO.
    specialize (LO p (nth_error_In _ _ Hj)). rewrite B in LO. apply andb_true_iff in LO. destruct LO as [L1 L2]. split; now apply negb_true_iff. }
  rewrite Nat.add_1_r. replace (t + 2) with (S (S t)) by lia. split; [|split; [|split]]; intros B Cb.
  - exact (hop_now ks body pin f Tr x y false g (H _ _ Cb B) t).
  - exact (hop_now ks body pin f Tr x y true g (H _ _ Cb B) t).
  - destruct (L B). exact (hop_late ks body pin f Tr x y false g (H _ _ Cb B) H0 H1 t).
  - destruct (L B). exact (hop_late ks body pin f Tr x y true g (H _ _ Cb B) H0 H1 t).
Qed.
Print Assumptions C50_latency.

(** The dot syntax: like <: when the unit is not callable and the instance has no <reginputs>, like <:: otherwise. *)
Theorem C50_latency_dot ks body pin f : trace ks body pin f -> forall i k j p o y g,
  nth_error ks i = Some k -> nth_error (n_ins k) j = Some p -> In o (n_outs k) -> y = out_own o \/ out_bnd o = Some y ->
  (forall q vs, length vs = length (n_ins k) -> n_unit k q vs (out_var o) = g (nth j vs 0%Z)) -> in_bnd p = None -> pin (in_own p) = false -> iswire ks (in_own p) = false -> forall t,
  (n_call k = false /\ n_reg k = false -> y_W (f (if out_comb o then t else t + 1)) y = g (y_E (f t) (in_own p))) /\
  (n_call k = true \/ n_reg k = true -> y_W (f (if out_comb o then t + 1 else t + 2)) y = g (y_E (f t) (in_own p))).
Proof.
  intros Tr i k j p o y g Hi Hj Io Hy U B P1 P2 t.
  assert (Y : In y (out_names o)). { unfold out_names. destruct Hy as [->|H]; [now left|rewrite H; right; now left]. }
  rewrite Nat.add_1_r. replace (t + 2) with (S (S t)) by lia. split; intros H.
  - assert (N : nth j (seen f k t) 0%Z = y_E (f t) (in_own p)).
    { unfold seen, given. apply nth_error_nth. rewrite nth_error_map, Hj. cbn [option_map]. unfold in_side. rewrite B. destruct H as [-> ->]. reflexivity. }
    destruct (out_comb o) eqn:Co; [rewrite (wire_comb ks body pin f Tr i k Hi t o y Io Y Co)|rewrite (wire_reg ks body pin f Tr i k Hi t o y Io Y Co)]; rewrite U by apply map_length; now rewrite N.
  - assert (N : nth j (seen f k (S t)) 0%Z = y_E (f t) (in_own p)).
    { unfold seen, given. apply nth_error_nth. rewrite nth_error_map, Hj. cbn [option_map]. unfold in_side. rewrite B.
      replace (negb (n_call k) && negb (n_reg k)) with false by (destruct H as [-> | ->]; [reflexivity|now rewrite andb_false_r]). cbn [side]. f_equal.
      eapply reg_next; eauto. }
    destruct (out_comb o) eqn:Co; [rewrite (wire_comb ks body pin f Tr i k Hi (S t) o y Io Y Co)|rewrite (wire_reg ks body pin f Tr i k Hi (S t) o y Io Y Co)]; rewrite U by apply map_length; now rewrite N.
Qed.
Print Assumptions C50_latency_dot.

(** Units with registers: bound in the same way on all its inputs, an instance behaves as the unit on its own given the values assigned to the variables [l] in each cycle,
    seen with the latency of the bindings. *)
Theorem C50_stream ks body pin f : trace ks body pin f -> late_ok ks pin = true -> forall i k o y l,
  nth_error ks i = Some k -> In o (n_outs k) -> y = out_own o \/ out_bnd o = Some y ->
  (forall q q' vs x, (forall z, q z = q' z) -> n_unit k q vs x = n_unit k q' vs x) ->
  let v t := map (y_E (f t)) l in
  (map in_bnd (n_ins k) = map (fun x => Some (CL x)) l -> forall t,
     y_W (f (if out_comb o then t else t + 1)) y = alone (n_unit k) (y_C (f 0) i) v (t + 1) (out_var o)) /\
  (map in_bnd (n_ins k) = map (fun x => Some (CQ x)) l -> forall t,
     y_W (f (if out_comb o then t + 1 else t + 2)) y = alone (n_unit k) (y_C (f 1) i) v (t + 1) (out_var o)).
Proof.
  intros Tr LO i k o y l Hi Io Hy Ext v.
  assert (Y : In y (out_names o)). { unfold out_names. destruct Hy as [->|H]; [now left|rewrite H; right; now left]. }
  assert (SD : forall F, map in_bnd (n_ins k) = map (fun x => Some (F x)) l -> map (in_side k) (n_ins k) = map F l).
  { intros F. generalize (n_ins k) l. induction l0 as [|p ps IH]; intros [|x xs] H; try discriminate; [reflexivity|]. cbn [map] in *. injection H as H1 H2.
    rewrite (IH xs H2). f_equal. unfold in_side. now rewrite H1. }
  split; intros B t; rewrite ?Nat.add_1_r; replace (t + 2) with (S (S t)) by lia; cbn [alone].
  - assert (SN : forall t, seen f k t = v t) by (intros t0; eapply seen_now; now apply SD).
    pose proof (runs_alone ks body pin f Tr i k Hi Ext v 0 SN t) as R. cbn [Nat.add] in R.
    destruct (out_comb o) eqn:Co; [rewrite (wire_comb ks body pin f Tr i k Hi t o y Io Y Co)|rewrite (wire_reg ks body pin f Tr i k Hi t o y Io Y Co)]; rewrite SN; now apply Ext.
  - assert (SN : forall t, seen f k (1 + t) = v t).
    { intros t0. eapply seen_late; eauto. intros x Ix. unfold late_ok in LO. rewrite forallb_forall in LO. specialize (LO k (nth_error_In _ _ Hi)). rewrite forallb_forall in LO.
      assert (I2 : In (Some (CQ x)) (map in_bnd (n_ins k))) by (rewrite B; apply in_map_iff; eauto). apply in_map_iff in I2. destruct I2 as (p & Bp & Ip).
      specialize (LO p Ip). rewrite Bp in LO. apply andb_true_iff in LO. destruct LO as [L1 L2]. split; now apply negb_true_iff. }
    pose proof (runs_alone ks body pin f Tr i k Hi Ext v 1 SN t) as R. cbn [Nat.add] in R, SN.
    destruct (out_comb o) eqn:Co; [rewrite (wire_comb ks body pin f Tr i k Hi (S t) o y Io Y Co)|rewrite (wire_reg ks body pin f Tr i k Hi (S t) o y Io Y Co)];
      rewrite SN; now apply Ext.
Qed.
Print Assumptions C50_stream.

(** Instances bound one after another (:> x then <: x): latencies add up and functions compose. *)
Theorem C50_chain ks body pin f : trace ks body pin f -> (forall x, In x (asgs body) -> iswire ks x = false) ->
  forall x y l g, route ks x y l g -> forall t, y_W (f (l + t)) y = g (y_E (f t) x).
Proof. intros Tr NA x y l g R t. exact (route_time ks body pin f Tr NA x y l g R t). Qed.
Print Assumptions C50_chain.

(** The four cases of the documentation on one parent: 0 is a register incremented in each cycle, units o = i. *)
Definition k_case (i : conn) (comb : bool) (own : FsmModel.var) : inst := {| n_call := false; n_reg := false; n_ins := [{| in_own := own; in_bnd := Some i |}];
  n_outs := [{| out_var := 10; out_comb := comb; out_nocheck := false; out_own := own + 1; out_bnd := None |}]; n_unit := unit_of [20] [Put 10 (EV 20)] |}.
Definition ks_cases := [k_case (CL 0) false 1; k_case (CL 0) true 3; k_case (CQ 0) false 5; k_case (CQ 0) true 7].
Definition b_count := [Put 0 (add (EV 0) (EC 1))].
(** A trace, with 0 counting from 1: after the edges 0 holds t, outputs hold what the unit last saw. *)
Definition f_cases (t : nat) : cyc :=
  let now := Z.of_nat t in
  let Q := fun x => if Nat.eqb x 0 then now else 0%Z in
  let W := fun x => match x with 2 => now | 4 => (now + 1)%Z | 6 => (now - 1)%Z | 8 => now | _ => 0%Z end in
  {| y_Q := Q; y_W := W;
     y_C := fun i x => match x with
       | 10 => match i with 0 | 1 => now | _ => (now - 1)%Z end
       | 20 => match i with 0 | 1 => now | _ => (now - 1)%Z end
       | _ => 0%Z end;
     y_E := fun x => if Nat.eqb x 0 then (now + 1)%Z else if iswire ks_cases x then W x else Q x |}.
Example C50_latency_ex : trace ks_cases b_count nopin f_cases /\ late_ok ks_cases nopin = true /\ accepted ks_cases b_count nopin 9 = true /\
  forall t, y_E (f_cases t) 0 = Z.of_nat (t + 1) /\ y_W (f_cases (t + 1)) 2 = Z.of_nat (t + 1) /\ y_W (f_cases t) 4 = Z.of_nat (t + 1) /\
    y_W (f_cases (t + 2)) 6 = Z.of_nat (t + 1) /\ y_W (f_cases (t + 1)) 8 = Z.of_nat (t + 1).
Proof.
  assert (S1 : forall t, Z.of_nat (S t) = (Z.of_nat t + 1)%Z) by (intros; lia).
  split; [|split; [reflexivity|split; [vm_compute; reflexivity|]]].
  - intros t. split; [|split].
    + split.
      * intros x. unfold b_count. cbn [exec exec1 eval add]. unfold upd. unfold f_cases at 1. cbn [y_E]. rewrite Nat.eqb_sym.
        destruct (Nat.eqb 0 x) eqn:X; [apply Nat.eqb_eq in X; subst x; reflexivity|]. unfold wired, f_cases. cbn [y_W y_Q]. rewrite (Nat.eqb_sym x 0), X. reflexivity.
      * intros [|[|[|[|[|i]]]]] k o x H; try discriminate; injection H as <-; intros [<-|[]] [<-|[]]; unfold outval, given, f_cases; cbn -[Z.add Z.of_nat Z.sub]; try reflexivity; lia.
    + intros x _ W. unfold f_cases. cbn [y_Q y_E]. rewrite S1. destruct (Nat.eqb x 0); [reflexivity|]. now rewrite W.
    + intros i k x H. destruct i as [|[|[|[|[|i]]]]]; try discriminate; injection H as <-; unfold given, f_cases, unit_of; cbn -[Z.add Z.of_nat Z.sub upd]; rewrite ?S1;
        unfold upd; destruct (Nat.eqb x 10) eqn:X1; try (apply Nat.eqb_eq in X1; subst x; cbn -[Z.add Z.of_nat Z.sub]; lia);
        destruct (Nat.eqb x 20) eqn:X2; try (apply Nat.eqb_eq in X2; subst x; cbn -[Z.add Z.of_nat Z.sub]; lia);
        apply Nat.eqb_neq in X1; apply Nat.eqb_neq in X2;
        repeat (destruct x as [|x]; try reflexivity; try congruence).
  - intros t. unfold f_cases. cbn -[Z.add Z.of_nat Z.sub Nat.add]. rewrite !Nat2Z.inj_add. cbn [Z.of_nat Pos.of_succ_nat]. repeat split; lia.
Qed.

(** A chain of two: 0 through an output! then an output: one cycle. *)
Example C50_chain_ex : route [k_case (CL 0) true 1; k_case (CL 2) false 3] 0 4 1 (fun v => v).
Proof.
  change (route [k_case (CL 0) true 1; k_case (CL 2) false 3] 0 4 (0 + 1) (fun v => (fun v => v) ((fun v => v) v))).
  refine (r_more _ 0 2 4 0 false (fun v => v) (fun v => v) (r_one _ 0 2 true (fun v => v) _) _).
  - exists 0, (k_case (CL 0) true 1), 0. eexists _, _. split; [reflexivity|]. split; [reflexivity|]. split; [left; reflexivity|]. split; [left; reflexivity|].
    split; [reflexivity|]. split; [reflexivity|]. intros q [|v [|]] H; try discriminate. reflexivity.
  - exists 1, (k_case (CL 2) false 3), 0. eexists _, _. split; [reflexivity|]. split; [reflexivity|]. split; [left; reflexivity|]. split; [left; reflexivity|].
    split; [reflexivity|]. split; [reflexivity|]. intros q [|v [|]] H; try discriminate. reflexivity.
Qed.
(** The third instance of [ks_cases] as a stream, and an accumulator on its own. *)
Example C50_stream_ex : (forall t, y_W (f_cases (t + 2)) 6 = alone (unit_of [20] [Put 10 (EV 20)]) (y_C (f_cases 1) 2) (fun t => [y_E (f_cases t) 0]) (t + 1) 10) /\
  alone (unit_of [20] [Put 10 (add (EV 10) (EV 20))]) (fun _ => 0%Z) (fun t => [Z.of_nat t]) 5 10 = 10%Z.
Proof.
  split; [|reflexivity]. intros t. destruct C50_latency_ex as (Tr & L & _).
  refine (proj2 (C50_stream _ _ _ _ Tr L 2 _ _ 6 [0] eq_refl (or_introl eq_refl) (or_introl eq_refl) (unit_ext _ _)) eq_refl t).
Qed.
(** The dot syntax on a <reginputs> instance: the unit sees what was assigned in the cycle before. *)
Definition k_regi : inst := {| n_call := false; n_reg := true; n_ins := [{| in_own := 1; in_bnd := None |}];
  n_outs := [{| out_var := 10; out_comb := true; out_nocheck := false; out_own := 2; out_bnd := None |}]; n_unit := unit_of [20] [Put 10 (EV 20)] |}.
Example C50_latency_dot_ex : forall f, trace [k_regi] [Put 1 (add (EV 1) (EC 1))] nopin f -> forall t, y_W (f (t + 1)) 2 = y_E (f t) 1 /\ y_E (f (t + 1)) 1 = (y_E (f t) 1%nat + 1)%Z.
Proof.
  intros f Tr t. split.
  - refine (proj2 (C50_latency_dot _ _ _ _ Tr 0 k_regi 0 _ _ 2 (fun v => v) eq_refl eq_refl (or_introl eq_refl) (or_introl eq_refl) _ eq_refl eq_refl eq_refl t) (or_intror eq_refl)).
    intros q [|v [|]] H; try discriminate. reflexivity.
  - destruct (Tr (t + 1)) as ([E _] & _). rewrite E. destruct (Tr t) as (_ & R & _). rewrite Nat.add_1_r.
    change (y_Q (f (S t)) 1%nat + 1 = y_E (f t) 1%nat + 1)%Z. now rewrite (R 1 eq_refl eq_refl).
Qed.
