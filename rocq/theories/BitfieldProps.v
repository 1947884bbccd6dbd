(** Properties C23, C27. *)
From Coq Require Import ZArith String List Bool.
From Verif Require Import BitfieldModel BitfieldProofs.
Import ListNotations.
Local Open Scope Z_scope.
Local Open Scope string_scope.

(** *** C23: bitfield members partition the bitfield *)

(** Every bit belongs to exactly one member. *)
Theorem C23_members_partition : forall f,
  Forall (fun m => 0 <= m_width m) f -> NoDup (map m_name f) ->
  (forall name w o, bitfieldMemberTypeAndOffset f name = Some (w, o) -> 0 <= o /\ 0 <= w /\ o + w <= bitfieldWidth f) /\
  (forall b, 0 <= b < bitfieldWidth f ->
     exists! name, In name (map m_name f) /\
       exists w o, bitfieldMemberTypeAndOffset f name = Some (w, o) /\ o <= b < o + w).
Proof. exact (fun f H1 H2 => conj (fun n w o => member_range_inside f n w o H1) (bit_owner f H1 H2)). Qed.
Print Assumptions C23_members_partition.

(** Earlier members are more significant: the offset of a member is the total
    width of the members declared after it. *)
Theorem C23_first_is_msb : forall l1 m l2,
  ~ In (m_name m) (map m_name l2) ->
  bitfieldMemberTypeAndOffset (l1 ++ m :: l2)%list (m_name m)
   = Some (m_width m, fold_right (fun x a => m_width x + a) 0 l2).
Proof. exact member_offset. Qed.
Print Assumptions C23_first_is_msb.

Definition ex_bf : bitfield :=
  [mkMember "opcode" true 7 false; mkMember "rd" true 5 false; mkMember "imm" true 20 false].

Example C23_ex : Forall (fun m => 0 <= m_width m) ex_bf /\ NoDup (map m_name ex_bf) /\ bitfieldWidth ex_bf = 32
  /\ bitfieldMemberTypeAndOffset ex_bf "rd" = Some (5, 20).
Proof.
  repeat split.
  - repeat constructor; vm_compute; congruence.
  - repeat constructor; cbn; intuition congruence.
Qed.

(** Initializers: each member receives the value written for it (modulo its
    width) and the total width is that of the bitfield, provided sized constants
    have the width of their member and bare ones are not negative. Missing from
    the full claim: sized constants of another width, see the refutation. *)
Theorem C23_initializer_partial : forall f vals l,
  Forall (fun m => 0 <= m_width m) f -> NoDup (map m_name f) ->
  (forall m c, In m f -> named_value vals (m_name m) = Some c ->
      match c with CSized w _ => w = m_width m | CBare v => 0 <= v end) ->
  gatherBitfieldValue f vals = Some l ->
  concat_width l = bitfieldWidth f /\
  forall m, In m f -> exists c w o, named_value vals (m_name m) = Some c /\
     bitfieldMemberTypeAndOffset f (m_name m) = Some (w, o) /\
     part_select (concat_value l) o w = (match c with CSized _ v => v | CBare v => v end) mod 2 ^ w.
Proof. exact bitfield_init_ok. Qed.
Print Assumptions C23_initializer_partial.

Definition ex_vals : list (string * const) := [("imm", CBare 5); ("rd", CSized 5 17); ("opcode", CBare 99)].
Example C23_initializer_ex :
  gatherBitfieldValue ex_bf ex_vals = Some [(7, 99); (5, 17); (20, 5)] /\
  part_select (concat_value [(7, 99); (5, 17); (20, 5)]) 20 5 = 17.
Proof. split; vm_compute; reflexivity. Qed.

(** A sized constant whose width is not that of the member is accepted and shifts
    the other members: the member read back is not the value written. *)
Theorem C23_initializer_refuted : exists f vals l m c w o,
  Forall (fun m => 0 <= m_width m) f /\ NoDup (map m_name f) /\
  gatherBitfieldValue f vals = Some l /\ In m f /\
  named_value vals (m_name m) = Some c /\ bitfieldMemberTypeAndOffset f (m_name m) = Some (w, o) /\
  part_select (concat_value l) o w <> const_num c mod 2 ^ w.
Proof.
  exists [mkMember "a" true 4 false; mkMember "b" true 4 false], [("a", CBare 3); ("b", CSized 8 1)].
  exists [(4, 3); (8, 1)], (mkMember "a" true 4 false), (CBare 3), 4, 4.
  split; [repeat (apply Forall_cons; [vm_compute; congruence|]); apply Forall_nil|].
  split; [repeat constructor; cbn; intuition congruence|].
  split; [vm_compute; reflexivity|]. split; [left; reflexivity|].
  split; [reflexivity|]. split; [reflexivity|]. vm_compute; congruence.
Qed.
Print Assumptions C23_initializer_refuted.

(** The members that may be accessed: unsigned, without an initializer of their own. *)
Theorem C23_accessible : forall f name, NoDup (map m_name f) ->
  (bitfieldAccess_ok f name None = true <-> exists m, In m f /\ m_name m = name /\ m_unsigned m = true /\ m_has_init m = false).
Proof. exact accessible. Qed.
Print Assumptions C23_accessible.
Example C23_accessible_ex : bitfieldAccess_ok ex_bf "rd" None = true /\
  bitfieldAccess_ok (mkMember "s" false 3 false :: ex_bf) "s" None = false /\ bitfieldAccess_ok (mkMember "i" true 3 true :: ex_bf) "i" None = false.
Proof. repeat split. Qed.

(** *** C27: constant bit accesses *)

(** An accepted bitfield access stays inside the variable. *)
Theorem C27_bitfield_access_inside : forall f name p w o,
  Forall (fun m => 0 <= m_width m) f ->
  bitfieldAccess_ok f name (Some p) = true ->
  bitfieldConstBitRange f name None = Some (o, w) ->
  0 <= o /\ 0 <= w /\ o + w <= p.
Proof. exact bitfield_access_inside. Qed.
Print Assumptions C27_bitfield_access_inside.

(** A part select within a member adds the offsets, stays inside the member when
    the part select does, and designates the same bits as selecting twice. *)
Theorem C27_nested_part_select_partial : forall f name p r0 r1 mw mo,
  Forall (fun m => 0 <= m_width m) f ->
  bitfieldAccess_ok f name (Some p) = true ->
  bitfieldMemberTypeAndOffset f name = Some (mw, mo) ->
  0 <= r0 -> 0 <= r1 -> r0 + r1 <= mw ->
  bitfieldConstBitRange f name (Some (r0, r1)) = Some (mo + r0, r1) /\
  mo <= mo + r0 /\ mo + r0 + r1 <= mo + mw <= p /\
  forall x, part_select (part_select x mo mw) r0 r1 = part_select x (mo + r0) r1.
Proof. exact nested_range_full. Qed.
Print Assumptions C27_nested_part_select_partial.

Example C27_ex : bitfieldAccess_ok ex_bf "rd" (Some 32) = true /\
  bitfieldConstBitRange ex_bf "rd" (Some (1, 3)) = Some (21, 3).
Proof. split; vm_compute; reflexivity. Qed.

(** An accepted part select designates at least one bit. *)
Theorem C27_part_select_nonempty : forall f name r0 r1 o w, 0 <= r0 -> partSelect_ok r0 r1 = true ->
  bitfieldConstBitRange f name (Some (r0, r1)) = Some (o, w) -> 0 < w.
Proof. exact part_select_nonempty. Qed.
Print Assumptions C27_part_select_nonempty.
Example C27_part_select_nonempty_ex : partSelect_ok 1 3 = true /\ partSelect_ok 1 0 = false.
Proof. split; reflexivity. Qed.

(** Nothing keeps a constant part select inside the member, or the variable. *)
Theorem C27_part_select_inside_refuted : exists f name p r0 r1 o w,
  bitfieldAccess_ok f name (Some p) = true /\ partSelect_ok r0 r1 = true /\
  bitfieldConstBitRange f name (Some (r0, r1)) = Some (o, w) /\ o + w > p.
Proof.
  exists ex_bf, "opcode", 32, 4, 8, 29, 8. repeat split; vm_compute; congruence.
Qed.
Print Assumptions C27_part_select_inside_refuted.
