(** Property C31. *)
From Coq Require Import List Bool Arith Lia.
From Verif Require Import ModeModel ModeProofs.
Import ListNotations.

(** For a list without repetition the unit gets exactly the listed modes, each once,
    in the order bmc, tind, cover. *)
Theorem C31_modes_without_repetition_partial : forall l, NoDup l -> ~ In Empty l -> l <> [] ->
  unit_modes l = canonical l.
Proof. exact unit_modes_nodup. Qed.
Print Assumptions C31_modes_without_repetition_partial.

Example C31_ex : unit_modes [Cover; Bmc; Tind] = [Bmc; Tind; Cover] /\ unit_modes [] = [Bmc].
Proof. split; reflexivity. Qed.

(** With repetitions (up to 16 entries), no listed mode is lost. *)
Theorem C31_no_mode_lost : forall l m, In m l -> In m (unit_modes l).
Proof. exact unit_modes_keeps. Qed.
Print Assumptions C31_no_mode_lost.

(** But repeated modes are not removed. *)
Theorem C31_once_refuted : exists l, ~ In Empty l /\ unit_modes l = [Bmc; Bmc; Tind].
Proof. exists [Bmc; Tind; Bmc]. split; [intros [H|[H|[H|[]]]]; discriminate|reflexivity]. Qed.
Print Assumptions C31_once_refuted.

(** And an empty mode, which nobody listed, may appear. *)
Theorem C31_listed_refuted : exists l, ~ In Empty l /\ unit_modes l = [Bmc; Tind; Empty].
Proof. exists [Bmc; Bmc; Tind]. split; [intros [H|[H|[H|[]]]]; discriminate|reflexivity]. Qed.
Print Assumptions C31_listed_refuted.
