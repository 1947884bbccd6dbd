(** Property C40. *)
From Coq Require Import String List Bool.
From Verif Require Import LuaEnvModel LuaEnvProofs.
Import ListNotations.
Local Open Scope string_scope.
Local Open Scope list_scope.

(** A global having the name of a parameter gets its value back, whatever the unit does. *)
Theorem C40_params_restored_partial : forall body ps g k, NoDup (keys ps) -> In k (keys ps) -> g k <> LFalse ->
  executeLuaString body ps g k = g k.
Proof. exact exec_param. Qed.
Print Assumptions C40_params_restored_partial.

(** During the execution each parameter has the value of the instantiation, even if a global of
    the same name exists. *)
Theorem C40_params_visible_partial : forall ps g k v, NoDup (keys ps) -> find ps k = Some v -> g k <> LFalse ->
  read ps (fst (backup_loop ps g [])) k = LVal v.
Proof. exact params_visible. Qed.
Print Assumptions C40_params_visible_partial.

(** Any sequence of instantiations of units that assign no other global than their parameters
    leaves the globals as they were, so that each instantiation runs in the same environment. *)
Theorem C40_instantiations_independent_partial : forall runs g,
  (forall b ps, In (b, ps) runs -> only_params b /\ NoDup (keys ps)) ->
  (forall k, g k <> LFalse) -> forall k, execute_all runs g k = g k.
Proof. exact execute_all_restores. Qed.
Print Assumptions C40_instantiations_independent_partial.

Definition g_ex : globals := set (set (fun _ => Nil) "W" (LVal 8)) "F" LFalse.
Definition body_ex : params -> globals -> globals := fun _ g => set g "W" (LVal 3).

Example C40_ex : executeLuaString body_ex [("W", 16); ("D", 2)] g_ex "W" = LVal 8
  /\ read [("W", 16)] (fst (backup_loop [("W", 16)] g_ex [])) "W" = LVal 16
  /\ NoDup (keys [("W", 16); ("D", 2)]).
Proof. repeat split. repeat constructor; cbn; intuition discriminate. Qed.

(** Globals with value [false] are not restored, and hide the parameter. *)
Theorem C40_false_refuted : exists body ps g k v, In (k, v) ps /\ NoDup (keys ps) /\
  executeLuaString body ps g k <> g k /\ read ps (fst (backup_loop ps g [])) k <> LVal v.
Proof.
  exists (fun _ g => g), [("F", 1)], g_ex, "F", 1. split; [left; reflexivity|].
  split; [repeat constructor; cbn; tauto|]. cbn. split; discriminate.
Qed.
Print Assumptions C40_false_refuted.

(** Globals that are not parameters keep what the unit assigned. *)
Theorem C40_other_globals_refuted : exists body ps g k, NoDup (keys ps) /\
  executeLuaString body ps g k <> g k.
Proof.
  exists (fun _ g => set g "counter" (LVal 1)), [("W", 16)], g_ex, "counter".
  split; [repeat constructor; cbn; tauto|]. cbn. discriminate.
Qed.
Print Assumptions C40_other_globals_refuted.
