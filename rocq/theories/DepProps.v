(** Property C15. *)
From Coq Require Import List Bool Arith Lia.
From Verif Require Import DepModel DepProofs DepBranch.
Import ListNotations.

(** In a sequence of assignments that is accepted, no value is computed from an earlier value of the same variable in
    the cycle, and the dependencies hold every variable the last value of a variable is computed from, transitively. *)
Theorem C15_no_missed_loop_partial : forall n p d, in_range n p -> run n no_deps p = Some d -> covers p d /\ ~ comb_loop p.
Proof. exact run_sound. Qed.
Print Assumptions C15_no_missed_loop_partial.

(** The closure finishes. *)
Theorem C15_closure_terminates : forall n d i, inside n d -> (forall v, In v (i_read i) -> v < n) ->
  exists d1, closure n (fuel_for n) {| dep := fun w => if mem w (i_written i) then
      (fun r => if mem r (i_read i) then (if written d r then {| fD := true; fQ := false |} else {| fD := false; fQ := true |}) else f0) else dep d w;
    written := fun w => written d w || mem w (i_written i) |} = Some d1.
Proof. exact update_total. Qed.
Print Assumptions C15_closure_terminates.

Definition I (w : var) (r : list var) := {| i_read := r; i_written := [w] |}.
(* a = 0, b = 1, c = 2 *)
Example C15_ex_accept : exists d, run 3 no_deps [I 0 [1]; I 1 [0]; I 2 [0; 1; 2]] = Some d /\ fD (dep d 2 0) = true.
Proof. eexists. split; [vm_compute; reflexivity|vm_compute; reflexivity]. Qed.
Example C15_ex_reject : run 3 no_deps [I 0 [2]; I 1 [0]; I 0 [1]] = None.
Proof. vm_compute. reflexivity. Qed.

(** a = b; b = c; c = a; a = b; is rejected while the last value of a only comes from the register c. *)
Theorem C15_false_loop_refuted : exists n p, in_range n p /\ run n no_deps p = None /\ ~ comb_loop p.
Proof.
  exists 3, [I 0 [1]; I 1 [2]; I 2 [0]; I 0 [1]]. split; [|split; [vm_compute; reflexivity|]].
  - intros x v Hx Hv. cbn in Hx. repeat destruct Hx as [<-|Hx]; try contradiction; cbn in Hv; lia.
  - set (p := [I 0 [1]; I 1 [2]; I 2 [0]; I 0 [1]]).
    (* direct flows: (2,c) from (0,a) and (3,a) from (1,b) *)
    assert (D : forall i x w v j, nth_error p i = Some x -> In w (i_written x) -> In v (i_read x) -> last_write p i v j ->
              (i = 2 /\ w = 2 /\ j = 0 /\ v = 0) \/ (i = 3 /\ w = 0 /\ j = 1 /\ v = 1)).
    { intros i x w v j Hx Hw Hv (Hlt & (y & Hy & Hyv) & _).
      destruct i as [|[|[|[|i]]]]; cbn in Hx; try (destruct i; discriminate); inversion Hx; subst x; clear Hx;
      cbn in Hw, Hv; destruct Hw as [<-|[]]; destruct Hv as [<-|[]];
      (destruct j as [|[|[|j]]]; try lia; cbn in Hy; inversion Hy; subst y; cbn in Hyv; destruct Hyv as [E|[]]; try discriminate); auto. }
    assert (K : forall i w j v, flow p i w j v -> (i = 2 /\ w = 2 /\ j = 0 /\ v = 0) \/ (i = 3 /\ w = 0 /\ j = 1 /\ v = 1)).
    { intros i w j v Hf. induction Hf as [i x w v j Hx Hw Hv Hl|i x w v j k u Hx Hw Hv Hl Hf IH].
      - eapply D; eauto.
      - destruct (D _ _ _ _ _ Hx Hw Hv Hl) as [(-> & -> & -> & ->)|(-> & -> & -> & ->)];
        destruct IH as [(A & B & _)|(A & B & _)]; discriminate. }
    intros (i & j & w & Hf). apply K in Hf. lia.
Qed.
Print Assumptions C15_false_loop_refuted.

(** a = c; b = c; if (c) { b = a; } a = b; is accepted: the dependency of b on a is lost when the branches are merged. *)
Theorem C15_branch_refuted : exists n p d l, run_codes n no_deps p = Some d /\ exec_codes0 p l /\ comb_loop l.
Proof.
  exists 3, [Ins (I 0 [2]); Ins (I 1 [2]); IfElse [2] [Ins (I 1 [0])] []; Ins (I 0 [1])].
  eexists. exists [I 0 [2]; I 1 [2]; I 1 [0]; I 0 [1]]. split; [vm_compute; reflexivity|]. split.
  - change [I 0 [2]; I 1 [2]; I 1 [0]; I 0 [1]] with ([I 0 [2]] ++ [I 1 [2]] ++ ([I 1 [0]] ++ []) ++ [I 0 [1]] ++ []).
    repeat constructor.
  - exists 3, 0, 0. eapply (flow_more _ 3 (I 0 [1]) 0 1 2 0 0); try (cbn; auto; fail).
    + split; [lia|]. split; [exists (I 1 [0]); cbn; auto|]. intros k x Hk. lia.
    + eapply (flow_one _ 2 (I 1 [0]) 1 0 0); try (cbn; auto; fail).
      split; [lia|]. split; [exists (I 0 [2]); cbn; auto|]. intros k x Hk Hx. assert (k = 1) by lia. subst. cbn in Hx.
      inversion Hx; subst. cbn. lia.
Qed.
Print Assumptions C15_branch_refuted.

(** a = c; if (a) { b = c; } a = b; is accepted: tests are not recorded, the loop through the condition is missed. *)
Theorem C15_condition_refuted : exists n p d l, run_codes n no_deps p = Some d /\ exec_codes [] p l /\ comb_loop l.
Proof.
  exists 3, [Ins (I 0 [2]); IfElse [0] [Ins (I 1 [2])] []; Ins (I 0 [1])].
  eexists. exists [I 0 [2]; {| i_read := [2; 0]; i_written := [1] |}; I 0 [1]]. split; [vm_compute; reflexivity|]. split.
  - change [I 0 [2]; {| i_read := [2; 0]; i_written := [1] |}; I 0 [1]]
      with ([{| i_read := [2] ++ []; i_written := [0] |}] ++ ([{| i_read := [2] ++ [0] ++ []; i_written := [1] |}] ++ []) ++ [{| i_read := [1] ++ []; i_written := [0] |}] ++ []).
    apply (ex_cons [] (Ins (I 0 [2]))); [apply (ex_ins [] (I 0 [2]))|].
    apply (ex_cons [] (IfElse [0] [Ins (I 1 [2])] [])).
    + apply ex_then. apply (ex_cons _ (Ins (I 1 [2]))); [apply (ex_ins ([0] ++ []) (I 1 [2]))|constructor].
    + apply (ex_cons [] (Ins (I 0 [1]))); [apply (ex_ins [] (I 0 [1]))|constructor].
  - exists 2, 0, 0. eapply (flow_more _ 2 (I 0 [1]) 0 1 1 0 0); try (cbn; auto; fail).
    + split; [lia|]. split; [exists {| i_read := [2; 0]; i_written := [1] |}; cbn; auto|]. intros k x Hk. lia.
    + eapply (flow_one _ 1 {| i_read := [2; 0]; i_written := [1] |} 1 0 0); try (cbn; auto; fail).
      split; [lia|]. split; [exists (I 0 [2]); cbn; auto|]. intros k x Hk. lia.
Qed.
Print Assumptions C15_condition_refuted.

(** The same in the other branch. *)
Theorem C15_else_branch_refuted : exists n p d l, run_codes n no_deps p = Some d /\ exec_codes0 p l /\ comb_loop l.
Proof.
  exists 3, [Ins (I 0 [2]); Ins (I 1 [2]); IfElse [2] [] [Ins (I 1 [0])]; Ins (I 0 [1])].
  eexists. exists [I 0 [2]; I 1 [2]; I 1 [0]; I 0 [1]]. split; [vm_compute; reflexivity|]. split.
  - change [I 0 [2]; I 1 [2]; I 1 [0]; I 0 [1]] with ([I 0 [2]] ++ [I 1 [2]] ++ ([I 1 [0]] ++ []) ++ [I 0 [1]] ++ []).
    constructor; [constructor|]. constructor; [constructor|]. constructor; [apply ex0_else; repeat constructor|]. repeat constructor.
  - exists 3, 0, 0. eapply (flow_more _ 3 (I 0 [1]) 0 1 2 0 0); try (cbn; auto; fail).
    + split; [lia|]. split; [exists (I 1 [0]); cbn; auto|]. intros k x Hk. lia.
    + eapply (flow_one _ 2 (I 1 [0]) 1 0 0); try (cbn; auto; fail).
      split; [lia|]. split; [exists (I 0 [2]); cbn; auto|]. intros k x Hk Hx. assert (k = 1) by lia. subst. cbn in Hx.
      inversion Hx; subst. cbn. lia.
Qed.
Print Assumptions C15_else_branch_refuted.

(** With conditionals, for any nesting: when a variable assigned in a branch is assigned neither before the conditional nor in the other branch, no loop is missed, on any path.
    Missing: tests (refuted above), and variables assigned again (refuted above). *)
Theorem C15_branches_partial : forall n p d l, (forall v, In v (flat_map creads p) \/ In v (flat_map cwrites p) -> v < n) -> separates [] p = true ->
  run_codes n no_deps p = Some d -> exec_codes0 p l -> ~ comb_loop l.
Proof.
  intros n p d l Hr Sp H He (i & j & w & Hf).
  destruct (proj2 (branches_ok n) p l He Hr [] no_deps d []) as [_ N]; auto.
  - intros a r _. reflexivity.
  - intros v Hv. discriminate.
  - split; intros v k; [intros (K & _)|intros k' u (K & _)]; cbn in K; lia.
  - intros a b x Hx. inversion Hx as [? ? ? ? ? Hn|? ? ? ? ? ? ? Hn]; destruct a; discriminate.
  - exact (N i j w Hf).
Qed.
Print Assumptions C15_branches_partial.
(* a = 0, b = 1, c = 2, d = 3: a = c; if (c) { b = a; } else { d = a; } a = b;  and the variant which does not close the loop *)
Example C15_branches_ex :
  separates [] [Ins (I 0 [2]); IfElse [2] [Ins (I 1 [0])] [Ins (I 3 [0])]; Ins (I 0 [1])] = true /\
  run_codes 4 no_deps [Ins (I 0 [2]); IfElse [2] [Ins (I 1 [0])] [Ins (I 3 [0])]; Ins (I 0 [1])] = None /\
  run_codes 4 no_deps [Ins (I 0 [2]); IfElse [2] [Ins (I 1 [0])] [Ins (I 3 [0])]; Ins (I 0 [3])] = None /\
  exists d, run_codes 4 no_deps [Ins (I 0 [2]); IfElse [2] [Ins (I 1 [0])] [Ins (I 3 [0])]; Ins (I 2 [1; 3])] = Some d.
Proof. split; [reflexivity|]. split; [vm_compute; reflexivity|]. split; [vm_compute; reflexivity|]. eexists. vm_compute. reflexivity. Qed.
