(** Property C10. *)
From Coq Require Import List Bool Arith Lia Permutation.
From Verif Require Import OrderModel OrderProofs.
Import ListNotations.

(** An accepted pipeline is evaluated in an order of all its stages consistent with ^= and v=. *)
Theorem C10_order_valid : forall st l, order_stages st = Some l -> valid_order st l.
Proof. exact order_sound. Qed.
Print Assumptions C10_order_valid.

(** A pipeline is rejected only if there is no such order. *)
Theorem C10_rejects_only_impossible : forall st l, valid_order st l -> order_stages st <> None.
Proof. exact order_complete. Qed.
Print Assumptions C10_rejects_only_impossible.

(** Without ^= and v= the stages are evaluated first to last. *)
Theorem C10_natural_order : forall st, (forall s, In s st -> written_backward s = [] /\ written_forward s = []) ->
  order_stages st = Some (seq 0 (length st)).
Proof. exact order_natural. Qed.
Print Assumptions C10_natural_order.

Definition st_ex := [ {| read := [1]; written_backward := []; written_forward := [2] |};
                      {| read := [2; 3]; written_backward := [1]; written_forward := [] |};
                      {| read := []; written_backward := [3]; written_forward := [] |} ].
(* stage 0 reads what stage 1 writes backward, stage 1 reads what 0 writes forward: impossible *)
Example C10_ex_impossible : order_stages st_ex = None.
Proof. reflexivity. Qed.
Definition st_ex2 := [ {| read := [1]; written_backward := []; written_forward := [] |};
                       {| read := [3]; written_backward := [1]; written_forward := [4] |};
                       {| read := [4]; written_backward := []; written_forward := [] |} ].
Example C10_ex : order_stages st_ex2 = Some [1; 0; 2] /\ must_precede st_ex2 1 0 /\ must_precede st_ex2 1 2.
Proof.
  split; [reflexivity|]. split; apply constraints_spec; cbn; tauto.
Qed.
