(** Property C30. *)
From Coq Require Import String List Bool ZArith Lia.
From Verif Require Import PinModel PinProofs.
Import ListNotations.
Local Open Scope string_scope.
Local Open Scope list_scope.

(** A whole pin is never connected after another use of the pin, whole or not. *)
Theorem C30_whole_after_use_rejected : forall fw ps u', add_ports fw ps [] = Some u' ->
  forall c1 pt p c2, connections fw ps = (c1 ++ (pt, (p, (-1)%Z)) :: c2)%list -> ~ In p (map cpin c1).
Proof. exact whole_after_use. Qed.
Print Assumptions C30_whole_after_use_rejected.

(** If the ports only use whole pins, no pin is connected twice. Missing for the full
    property: designs with bits of pins, see the refutations. *)
Theorem C30_pins_used_once_partial : forall fw ps u', add_ports fw ps [] = Some u' ->
  (forall c, In c (connections fw ps) -> snd (snd c) = (-1)%Z) ->
  NoDup (map cpin (connections fw ps)).
Proof. exact whole_only_nodup. Qed.
Print Assumptions C30_pins_used_once_partial.

(** A whole pin is declared in the top module with the direction of its port. *)
Theorem C30_direction : forall fw ps u u' p d q, add_ports fw ps u = Some u' ->
  In (p, d, (q, (-1)%Z)) (connections fw ps) -> In (q, d) u'.
Proof. exact direction_ok. Qed.
Print Assumptions C30_direction.

Definition fw_ex : framework := {|
  pins := fun s => if String.eqb s "led" then Some 8%Z else if String.eqb s "btn" then Some 1%Z else None;
  groups := fun s => if String.eqb s "pmod" then Some [("led", 0%Z); ("", (-1)%Z); ("led", 1%Z)]
                     else if String.eqb s "pmod2" then Some [("led", 1%Z)]
                     else if String.eqb s "both" then Some [("led", (-1)%Z); ("", (-1)%Z); ("btn", (-1)%Z)] else None |}.

Example C30_ex : add_ports fw_ex [("btn", Input); ("led", Output)] [] = Some [("btn", Input); ("led", Output)]
  /\ add_ports fw_ex [("btn", Input); ("both", Output)] [] = None
  /\ connections fw_ex [("both", Output)] = [("both", Output, ("led", (-1)%Z)); ("both", Output, ("btn", (-1)%Z))].
Proof. repeat split. Qed.

(** The same bit connected to two ports is accepted. *)
Theorem C30_same_bit_refuted : exists fw ps u r,
  add_ports fw ps [] = Some u /\ In ("pmod", Output, r) (connections fw ps) /\ In ("pmod2", Output, r) (connections fw ps).
Proof. exists fw_ex, [("pmod", Output); ("pmod2", Output)], [("led", Output)], ("led", 1%Z). cbn. tauto. Qed.
Print Assumptions C30_same_bit_refuted.

(** A bit of a pin whose whole is already used is accepted. *)
Theorem C30_whole_then_bit_refuted : exists fw ps u,
  add_ports fw ps [] = Some u /\ In ("led", Output, ("led", (-1)%Z)) (connections fw ps)
  /\ In ("pmod2", Output, ("led", 1%Z)) (connections fw ps).
Proof. exists fw_ex, [("led", Output); ("pmod2", Output)], [("led", Output)]. cbn. tauto. Qed.
Print Assumptions C30_whole_then_bit_refuted.

(** A pin used bit by bit as input then as output is declared as input only. *)
Theorem C30_direction_bits_refuted : exists fw ps u,
  add_ports fw ps [] = Some u /\ In ("pmod", Output, ("led", 0%Z)) (connections fw ps) /\ u = [("led", Input)].
Proof. exists fw_ex, [("pmod2", Input); ("pmod", Output)], [("led", Input)]. cbn. tauto. Qed.
Print Assumptions C30_direction_bits_refuted.
