(** Bit-width arithmetic of the compiler: state registers, clog2, memory
    address buses, constants turned into defines, RISC-V address map. *)
From Coq Require Import ZArith List Bool.
Import ListNotations.
Local Open Scope Z_scope.

(** Loop of [Utils::justHigherPow2], src/Utils.cpp 199-211, for [n > 0].
    [while (n > 0) { if (n > 1 && (n & 1)) isp2 = false; ++p2; n = n >> 1; }]
    The C++ shifts [n] right one bit at a time; recursion on the binary
    representation of [n] visits the same values. *)
Fixpoint jhp2_loop (n : positive) (p2 : Z) (isp2 : bool) : Z * bool :=
  match n with
  | xH => (p2 + 1, isp2)                    (* n = 1: n > 1 is false; n becomes 0 *)
  | xO q => jhp2_loop q (p2 + 1) isp2       (* even *)
  | xI q => jhp2_loop q (p2 + 1) false      (* odd and > 1 *)
  end.

(** [Utils::justHigherPow2], src/Utils.cpp 199-211. [int] is [Z]: the function
    only shifts right and counts, so nothing overflows. For [n <= 0] the loop
    body never runs and the result is [0 - 1]. Lua's [clog2] is this function
    (src/LuaPreProcessor.cpp 771-774). *)
Definition justHigherPow2 (n : Z) : Z :=
  match n with
  | Zpos p => let '(p2, isp2) := jhp2_loop p 0 true in if isp2 then p2 - 1 else p2
  | _ => -1
  end.

(** Address bus width of a memory with [table_size] entries,
    src/Algorithm.cpp 984 (port) and 9452 (template). *)
Definition mem_addr_width (table_size : Z) : Z := justHigherPow2 table_size.

(** Loop of [Algorithm::width], src/Algorithm.cpp 4512-4515:
    [int w = 0; while (val > (1 << w)) w++; return w;] with 32-bit [int]:
    evaluating [1 << 31] is undefined, which is the [None] outcome. *)
Fixpoint width_loop (fuel : nat) (val w : Z) : option Z :=
  match fuel with
  | O => None                                   (* would evaluate 1 << 31 *)
  | S f => if val >? 2 ^ w then width_loop f val (w + 1) else Some w
  end.

(** [Algorithm::width], src/Algorithm.cpp 4508-4517. [sl_assert(val > 0)] is [None]. *)
Definition width (val : Z) : option Z :=
  if val <=? 0 then None else
  if val =? 1 then Some 1 else width_loop 31 val 0.

(** [Algorithm::stateWidth], src/Algorithm.cpp 4521-4524. *)
Definition stateWidth (maxState : Z) : option Z := width maxState.

(** [Algorithm::toFSMState], src/Algorithm.cpp 4483-4490; [1 << state] on a
    32-bit [int] is undefined (C++ before 20: value not representable) from
    [state = 31] on, which is [None]. *)
Definition toFSMState (oneHot : bool) (state : Z) : option Z :=
  if oneHot then (if (0 <=? state) && (state <? 31) then Some (2 ^ state) else None)
  else Some state.

(** Width in bits of the declared index register of the root machine,
    src/Algorithm.cpp 7883-7889. *)
Definition indexRegisterWidth (oneHot : bool) (maxState : Z) : option Z :=
  if oneHot then Some maxState else stateWidth maxState.

(** [Algorithm::terminationState], src/Algorithm.cpp 4468-4471. *)
Definition terminationState : Z := 0.

(** Value of a Verilog sized decimal literal [w'dv]: truncated to [w] bits. *)
Definition sized_literal (w v : Z) : Z := v mod 2 ^ w.

(** Next-state value written when returning from a subroutine,
    src/Algorithm.cpp 9051, 9063: [stateWidth'd toFSMState(return state)].
    Same expression whatever the encoding. *)
Definition returnIndexValue (oneHot : bool) (maxState ret : Z) : option Z :=
  match stateWidth maxState, toFSMState oneHot ret with
  | Some w, Some c => Some (sized_literal w c)
  | _, _ => None
  end.

(** Next-state value written when a subroutine returns and the caller id
    matches no call site, src/Algorithm.cpp 9059, 9072: [stateWidth'd 0]. *)
Definition returnDefaultValue (maxState : Z) : option Z :=
  match stateWidth maxState with Some w => Some (sized_literal w terminationState) | None => None end.

(** Width given to a positive unsized constant [i] turned into a define,
    [Algorithm::vioAsDefine], src/Algorithm.cpp 1523-1524. *)
Definition defineWidth (i : Z) : Z := 1 + justHigherPow2 i.

(** Width of the caller id register, src/Algorithm.cpp 7914-7921 and 9050. *)
Definition callerIdWidth (nextId : Z) : option Z := width nextId.

(** ** RISC-V address map *)

(** [RISCVSynthesizer::memorySize], src/RISCVSynthesizer.cpp 102-123: size
    accepted iff positive and multiple of four. *)
Definition riscv_mem_ok (sz : Z) : bool := (0 <? sz) && (sz mod 4 =? 0).

(** Loop over the IOs of [RISCVSynthesizer::generateCHeader],
    src/RISCVSynthesizer.cpp 279-315: [ptr_base = 1 << justHigherPow2(mem)],
    [ptr_next] starts at 4 and is shifted left after each IO; each address is
    [ptr_base | ptr_next]; an error is raised when, after the shift,
    [ptr_next >= ptr_base]. Unbounded integers: the check stops the loop
    before [ptr_next] exceeds [ptr_base], itself at most 2^31 for an [int]
    memory size. [None] is [reportError]. *)
Fixpoint riscv_addrs (ptr_base ptr_next : Z) (nios : nat) : option (list Z) :=
  match nios with
  | O => Some []
  | S n =>
      let addr := Z.lor ptr_base ptr_next in
      let ptr_next' := Z.shiftl ptr_next 1 in
      if ptr_next' >=? ptr_base then None
      else match riscv_addrs ptr_base ptr_next' n with
           | Some l => Some (addr :: l)
           | None => None
           end
  end.

(** Sizes above 2^30 make [1 << 31] overflow on a 32-bit [int]
    (src/RISCVSynthesizer.cpp 281): undefined, also [None]. *)
Definition riscv_c_addresses (mem : Z) (nios : nat) : option (list Z) :=
  if riscv_mem_ok mem && (mem <=? 2 ^ 30) then riscv_addrs (Z.shiftl 1 (justHigherPow2 mem)) 4 nios else None.

(** Word address seen by the SoC for a byte address (32-bit words; the SoC
    template indexes memory by word: frameworks/libraries/riscv/ice-v/riscv-soc.si 39-58). *)
Definition word_addr (byte_addr : Z) : Z := Z.shiftr byte_addr 2.

(** [ior_i]/[iow_i] select bit, src/RISCVSynthesizer.cpp 357-358: bit [i] of
    the word address. *)
Definition io_select (byte_addr i : Z) : bool := Z.testbit (word_addr byte_addr) i.

(** [$$external], src/RISCVSynthesizer.cpp 409: bit of the word address that
    tells a peripheral access. *)
Definition external_bit (mem : Z) : Z := justHigherPow2 mem - 2.

(** [$$addrW], src/RISCVSynthesizer.cpp 407: width of the word address bus. *)
Definition addrW (mem : Z) : Z := 1 + justHigherPow2 (mem / 4).
