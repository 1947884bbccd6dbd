(** Properties C06, C22, C29. *)
From Coq Require Import ZArith List Bool.
From Verif Require Import WidthModel WidthProofs.
Import ListNotations.
Local Open Scope Z_scope.

(** *** C06: the state register can hold every state code *)

(** Full claim for the binary encoding with up to 2^30 states and for the
    one-hot encoding with up to 31 states (beyond, the compiler's own [int]
    arithmetic is undefined, see the refutations). State 0 is termination. *)
Theorem C06_state_register_partial : forall (oneHot : bool) (maxState : Z),
  1 <= maxState -> (if oneHot then maxState <= 31 else maxState <= 2 ^ 30) ->
  exists w, indexRegisterWidth oneHot maxState = Some w /\
    (forall s, 0 <= s < maxState -> exists c, toFSMState oneHot s = Some c /\ 0 <= c < 2 ^ w /\
        (oneHot = true -> c = 2 ^ s)) /\
    (forall a b ca cb, toFSMState oneHot a = Some ca -> toFSMState oneHot b = Some cb -> a <> b -> ca <> cb).
Proof. exact register_ok. Qed.
Print Assumptions C06_state_register_partial.

Example C06_ex : indexRegisterWidth false 17 = Some 5 /\ indexRegisterWidth true 17 = Some 17
  /\ toFSMState true 16 = Some 65536 /\ toFSMState false 16 = Some 16.
Proof. repeat split; vm_compute; reflexivity. Qed.

(** A one-hot machine with 32 states has a state without a (defined) code. *)
Theorem C06_onehot_32_states_refuted : exists maxState s,
  0 <= s < maxState /\ maxState = 32 /\ toFSMState true s = None.
Proof. exists 32, 31. repeat split; vm_compute; congruence. Qed.
Print Assumptions C06_onehot_32_states_refuted.

(** Returning from a subroutine in a machine with the binary encoding loads
    the code of the return state. *)
Theorem C06_return_code_binary : forall maxState s, 1 <= maxState <= 2 ^ 30 -> 0 <= s < maxState ->
  returnIndexValue false maxState s = toFSMState false s.
Proof. exact return_value_binary. Qed.
Print Assumptions C06_return_code_binary.

Example C06_return_code_binary_ex : returnIndexValue false 9 8 = Some 8.
Proof. reflexivity. Qed.

(** With the one-hot encoding the literal is cut at the binary width: for every
    return state at or above it the register receives 0, which is the code of
    no state. *)
Theorem C06_return_code_onehot_refuted : forall maxState w s,
  stateWidth maxState = Some w -> w <= s < 31 ->
  returnIndexValue true maxState s = Some 0 /\ forall t, toFSMState true t <> Some 0.
Proof. exact onehot_return_lost_code. Qed.
Print Assumptions C06_return_code_onehot_refuted.

(** ... and this already happens with three states, returning to state 2. *)
Example C06_return_code_onehot_ex : stateWidth 3 = Some 2 /\ returnIndexValue true 3 2 = Some 0
  /\ toFSMState true 2 = Some 4.
Proof. repeat split; vm_compute; reflexivity. Qed.

(** A return matching no call site goes to the termination state, with the binary encoding... *)
Theorem C06_return_default_binary : forall maxState, 1 <= maxState <= 2 ^ 30 ->
  returnDefaultValue maxState = toFSMState false 0.
Proof. exact return_default_binary. Qed.
Print Assumptions C06_return_default_binary.
Example C06_return_default_ex : returnDefaultValue 9 = Some 0 /\ toFSMState true 0 = Some 1.
Proof. split; reflexivity. Qed.
(** ... and to a code of no state with the one-hot encoding. *)
Theorem C06_return_default_onehot_refuted : forall maxState v, returnDefaultValue maxState = Some v -> forall t, toFSMState true t <> Some v.
Proof. exact return_default_onehot. Qed.
Print Assumptions C06_return_default_onehot_refuted.

(** *** C22: clog2 *)

(** [clog2 n] is the least exponent of a power of two at least [n]. *)
Theorem C22_clog2 : forall n, 1 <= n ->
  0 <= justHigherPow2 n /\ n <= 2 ^ justHigherPow2 n /\
  forall w, 0 <= w -> n <= 2 ^ w -> justHigherPow2 n <= w.
Proof. exact jhp2_spec. Qed.
Print Assumptions C22_clog2.

(** Every entry of a memory has an address the address port can carry. *)
Theorem C22_memory_address : forall n a, 1 <= n -> 0 <= a < n -> 0 <= a < 2 ^ mem_addr_width n.
Proof. exact mem_address_covers. Qed.
Print Assumptions C22_memory_address.

Example C22_ex : justHigherPow2 1 = 0 /\ justHigherPow2 4096 = 12 /\ justHigherPow2 4097 = 13.
Proof. repeat split; vm_compute; reflexivity. Qed.

(** A memory of a single entry gets an address port of zero bits. *)
Theorem C22_single_entry_memory : mem_addr_width 1 = 0.
Proof. reflexivity. Qed.
Print Assumptions C22_single_entry_memory.

(** A positive unsized constant turned into a sized define keeps its value. *)
Theorem C22_define_width : forall i, 1 <= i -> sized_literal (defineWidth i) i = i.
Proof. exact define_value_kept. Qed.
Print Assumptions C22_define_width.

Example C22_define_width_ex : defineWidth 255 = 9 /\ sized_literal (defineWidth 255) 255 = 255.
Proof. split; reflexivity. Qed.

(** *** C29: RISC-V address map *)

Theorem C29_riscv_address_map : forall mem nios l,
  riscv_c_addresses mem nios = Some l ->
  length l = nios /\
  forall i a, nth_error l i = Some a ->
    io_select a (external_bit mem) = true /\
    (forall j, 0 <= j < Z.of_nat nios -> io_select a j = (j =? Z.of_nat i)) /\
    0 <= word_addr a < 2 ^ addrW mem /\
    (forall b, 0 <= b < mem -> io_select b (external_bit mem) = false) /\
    mem <= a.
Proof. exact riscv_map_ok. Qed.
Print Assumptions C29_riscv_address_map.

Example C29_ex : riscv_c_addresses 1000 5 = Some [1028; 1032; 1040; 1056; 1088].
Proof. vm_compute. reflexivity. Qed.
