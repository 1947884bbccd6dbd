(** Property C37. *)
From Coq Require Import String Ascii List Bool Arith NArith Lia.
From Verif Require Import LiteralModel LiteralProofs.
Import ListNotations.
Local Open Scope string_scope.
Local Open Scope list_scope.

(** Every literal whose width fits an int is written with the same sign, width, base and digits. *)
Theorem C37_literal_partial : forall s neg w b v,
  lex_sized s = Some (neg, w, b, v) -> (dec_value 0 w <= 2147483647)%N ->
  exists out, rewrite_number s = Some out /\ verilog_read out = Some (neg, dec_value 0 w, b, v).
Proof. exact rewrite_correct. Qed.
Print Assumptions C37_literal_partial.

Example C37_ex : lex_sized "-08hfF" = Some (true, "08", "h"%char, "fF") /\ rewrite_number "-08hfF" = Some "-8'hfF"
  /\ verilog_read "-8'hfF" = Some (true, 8%N, "h"%char, "fF").
Proof. repeat split. Qed.

(** A literal with digits that its base does not allow is accepted and copied, giving text that is not a Verilog number. *)
Theorem C37_digits_refuted : exists s w b v out, lex_sized s = Some (false, w, b, v) /\ is_number_sized s = false /\
  rewrite_number s = Some out /\ verilog_read out = Some (false, 8%N, b, v) /\ digits_ok b v = false.
Proof. exists "8b12", "8", "b"%char, "12", "8'b12". repeat split. Qed.
Print Assumptions C37_digits_refuted.

(** A zero width is accepted; Verilog requires a positive one. *)
Theorem C37_zero_width_refuted : exists s w b v out, lex_sized s = Some (false, w, b, v) /\
  rewrite_number s = Some out /\ verilog_read out = Some (false, 0%N, b, v).
Proof. exists "0b1", "0", "b"%char, "1", "0'b1". repeat split. Qed.
Print Assumptions C37_zero_width_refuted.

(** Where a text is tested for being a number, exactly the digits of its base are accepted, and x or z anywhere. *)
Theorem C37_is_number : forall s neg w b v, lex_sized s = Some (neg, w, b, v) -> (dec_value 0 w <= 2147483647)%N ->
  (is_number_sized s = true <-> forall c, In c (list_ascii_of_string v) -> In c (list_ascii_of_string (base_digits b))).
Proof. intros s neg w b v H Hw. rewrite (is_number_lex s neg w b v H Hw). apply digits_ok_spec. Qed.
Print Assumptions C37_is_number.
Example C37_is_number_ex : is_number_sized "4b01xz" = true /\ is_number_sized "8d12" = true /\ is_number_sized "8d1f" = false /\ is_number_sized "8h1f" = true /\ is_number_sized "8b12" = false.
Proof. repeat split. Qed.

(** Decimal values: Verilog accepts digits, or a single x or z (IEEE 1364-2005, 3.5.1). *)
Definition verilog_decimal (v : string) : bool := all_chars digitb v || match v with String c EmptyString => xzb c | _ => false end.
Theorem C37_decimal_x_refuted : exists s w v out, lex_sized s = Some (false, w, "d"%char, v) /\ is_number_sized s = true /\ rewrite_number s = Some out /\
  verilog_read out = Some (false, 8%N, "d"%char, v) /\ verilog_decimal v = false.
Proof. exists "8d1x", "8", "1x", "8'd1x". repeat split. Qed.
Print Assumptions C37_decimal_x_refuted.
