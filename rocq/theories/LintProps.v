(** C18: widths inferred by the linter. *)
From Coq Require Import List Bool Arith ZArith Lia.
From Verif Require Import LintModel LintProofs.
Import ListNotations.
Local Open Scope Z_scope.

(** When no width warning is given, an unsigned expression is stored without losing a bit: the variable gets the value the
    expression has over unbounded integers. *)
Theorem C18_unsigned_partial : forall G e t lw,
  unsigned_expr G e = true -> type_nfo G e = Some t -> Z.of_nat lw >= snd t ->
  assigned G lw e = exact G e /\ 0 <= exact G e < 2 ^ snd t.
Proof.
  intros G e t lw H1 H2 H3. split.
  - apply (unsigned_assigned G e t lw H1 H2). unfold warns_width. apply Z.ltb_ge. lia.
  - apply (unsigned_ok G e t H1 H2).
Qed.

(** Signed expressions, subtraction included. *)
Theorem C18_signed_partial : forall G e t lw,
  signed_expr G e = true -> type_nfo G e = Some t -> Z.of_nat lw >= snd t ->
  to_signed lw (assigned G lw e) = exact G e /\ - 2 ^ (snd t - 1) <= exact G e < 2 ^ (snd t - 1).
Proof.
  intros G e t lw H1 H2 H3. split.
  - apply (signed_assigned G e t lw H1 H2). unfold warns_width. apply Z.ltb_ge. lia.
  - apply (signed_ok G e t H1 H2).
Qed.

(** The difference of two unsigned expressions, read as a signed number. *)
Theorem C18_difference_partial : forall G a b t lw,
  unsigned_expr G a = true -> unsigned_expr G b = true -> type_nfo G (Bin Sub a b) = Some t -> Z.of_nat lw >= snd t ->
  to_signed lw (assigned G lw (Bin Sub a b)) = exact G a - exact G b.
Proof.
  intros G a b t lw H1 H2 H3 H4. apply (difference_assigned G a b t lw H1 H2 H3). unfold warns_width. apply Z.ltb_ge. lia.
Qed.

(** A warning is given whenever the width is too small, and the widths are never negative on sized operands. *)
Theorem C18_reports_narrow_partial : forall G e t lw,
  unsigned_expr G e = true -> type_nfo G e = Some t -> assigned G lw e <> exact G e -> warns_width lw t = true.
Proof.
  intros G e t lw H1 H2 H3. destruct (warns_width lw t) eqn:E; [reflexivity|].
  exfalso. apply H3. apply (unsigned_assigned G e t lw H1 H2 E).
Qed.

(** Expressions on which no warning is given and the stored value is not the one a wider variable would receive. *)
Definition silently_truncated (G : env) (lw : nat) (e : expr) : Prop :=
  exists t lw', type_nfo G e = Some t /\ warns_width lw t = false /\ (lw <= lw')%nat /\ assigned G lw e <> assigned G lw' e.

Definition G8 (v : nat -> Z) : env := {| v_type := fun _ => UInt; v_width := fun _ => 8%nat; v_val := v |}.
Definition S8 (v : nat -> Z) : env := {| v_type := fun _ => Int; v_width := fun _ => 8%nat; v_val := v |}.
(* 0 -> 2 bits, 1 -> 2 bits, 2 -> 3 bits *)
Definition G3 (v : nat -> Z) : env := {| v_type := fun _ => UInt; v_width := fun x => match x with 2 => 3 | _ => 2 end%nat; v_val := v |}.

(** {2{a}} has twice the width of a. *)
Theorem C18_replication_refuted : silently_truncated (G8 (fun _ => 200)) 8 (Rep 2 (Var 0)).
Proof. exists (UInt, 8), 16%nat. repeat split; try reflexivity; [lia|]. vm_compute. discriminate. Qed.

(** A plain number has width -1, and widths are added by a product: 3 * a has width 7 for an 8 bit a. *)
Theorem C18_number_product_refuted : silently_truncated (G8 (fun _ => 200)) 7 (Bin Mul (Num 3) (Var 0)).
Proof. exists (UInt, 7), 16%nat. repeat split; try reflexivity; [lia|]. vm_compute. discriminate. Qed.

(** a + 1000 has width 9. *)
Theorem C18_number_sum_refuted : silently_truncated (G8 (fun _ => 0)) 9 (Bin Add (Var 0) (Num 1000)).
Proof. exists (UInt, 9), 16%nat. repeat split; try reflexivity; [lia|]. vm_compute. discriminate. Qed.

(** a << 4 has the width of a. *)
Theorem C18_shift_refuted : silently_truncated (G8 (fun _ => 200)) 8 (Bin Shl (Var 0) (Sized 3 4)).
Proof. exists (UInt, 8), 16%nat. repeat split; try reflexivity; [lia|]. vm_compute. discriminate. Qed.

(** The opposite of a signed variable needs one more bit. *)
Theorem C18_opposite_refuted : exists G lw e t,
  type_nfo G (Un Neg e) = Some t /\ warns_width lw t = false /\ signed_expr G e = true /\
  to_signed lw (assigned G lw (Un Neg e)) <> - exact G e.
Proof.
  exists (S8 (fun _ => -128)), 8%nat, (Var 0), (Int, 8). repeat split; try reflexivity. vm_compute. discriminate.
Qed.

(** Nested differences of unsigned variables, (x - y) - z, do not fit the inferred width. *)
Theorem C18_nested_difference_refuted : exists G lw a b c t,
  let e := Bin Sub (Bin Sub a b) c in
  type_nfo G e = Some t /\ warns_width lw t = false /\
  unsigned_expr G a = true /\ unsigned_expr G b = true /\ unsigned_expr G c = true /\
  ~ (- 2 ^ (snd t - 1) <= exact G a - exact G b - exact G c) /\
  to_signed lw (assigned G lw e) <> exact G a - exact G b - exact G c.
Proof.
  exists (G3 (fun x => match x with O => 0 | S O => 3 | _ => 7 end)), 4%nat, (Var 0), (Var 1), (Var 2), (UInt, 4).
  repeat split; try reflexivity; [|vm_compute; discriminate]. intro H. vm_compute in H. apply H. reflexivity.
Qed.

(** A sum of a signed and an unsigned variable: Verilog computes it without the sign, whatever the width. *)
Theorem C18_mixed_refuted : exists G lw t,
  let e := Bin Add (Var 0) (Var 1) in
  type_nfo G e = Some t /\ warns_width lw t = false /\ assigned G lw e <> exact G e mod pow2 lw.
Proof.
  exists {| v_type := fun x => match x with O => UInt | _ => Int end; v_width := fun _ => 8%nat;
            v_val := fun x => match x with O => 10 | _ => -1 end |}, 9%nat, (UInt, 9).
  repeat split; try reflexivity. vm_compute. discriminate.
Qed.

(** A concatenation starting with a signed variable is believed to be signed; Verilog extends it with zeros. *)
Theorem C18_concat_sign_refuted : exists G e lw,
  type_nfo G e = Some (Int, 16) /\ (16 <= lw)%nat /\
  to_signed lw (assigned G lw e) <> to_signed 16 (veval G false 16 e).
Proof.
  exists (S8 (fun _ => -1)), (Cat (Var 0) (Var 1)), 20%nat. repeat split; try reflexivity; [lia|]. vm_compute. discriminate.
Qed.

Example C18_example :
  let G := G8 (fun x => match x with O => 200 | _ => 100 end) in
  let e := Tern (Bin Lt (Var 0) (Var 1)) (Var 0) (Bin Mul (Bin Add (Var 0) (Var 1)) (Cat (Var 0) (Bin Shr (Var 1) (Sized 2 1)))) in
  unsigned_expr G e = true /\ type_nfo G e = Some (UInt, 25) /\ assigned G 25 e = 300 * (200 * 256 + 50) /\
  assigned G 20 e <> exact G e /\ warns_width 20 (UInt, 25) = true /\
  type_nfo G (Bin Sub (Var 1) (Var 0)) = Some (UInt, 9) /\ to_signed 9 (assigned G 9 (Bin Sub (Var 1) (Var 0))) = -100.
Proof. vm_compute. repeat split; discriminate. Qed.

Example C18_signed_example :
  let G := S8 (fun x => match x with O => -100 | _ => 77 end) in
  let e := Bin Sub (Bin Mul (Var 0) (Var 1)) (Bin AShr (Var 0) (Sized 2 3)) in
  signed_expr G e = true /\ type_nfo G e = Some (UInt, 17) /\ to_signed 17 (assigned G 17 e) = -7700 + 13.
Proof. vm_compute. repeat split. Qed.

Print Assumptions C18_unsigned_partial.
Print Assumptions C18_signed_partial.
Print Assumptions C18_difference_partial.
Print Assumptions C18_reports_narrow_partial.
Print Assumptions C18_replication_refuted.
Print Assumptions C18_number_product_refuted.
Print Assumptions C18_number_sum_refuted.
Print Assumptions C18_shift_refuted.
Print Assumptions C18_opposite_refuted.
Print Assumptions C18_nested_difference_refuted.
Print Assumptions C18_mixed_refuted.
Print Assumptions C18_concat_sign_refuted.
