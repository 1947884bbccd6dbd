(** RISC-V units: the C functions given for inputs and outputs, and the code of the system around the processor.
    src/RISCVSynthesizer.cpp 254-428, frameworks/libraries/riscv/ice-v/riscv-soc.si (the one of ice-v-dual is the same but for the processor included). *)
From Coq Require Import String Ascii List Bool Arith ZArith.
From Verif Require Import WidthModel.
Import ListNotations.
Local Open Scope Z_scope.

(** Inputs and outputs of the unit. [gather], 53-90. *)
Inductive dir := DIn | DOut | DInout.
Record io := { io_dir : dir; io_name : string; io_signed : bool; io_width : Z }.

Definition is_dir (d : dir) (e : io) : bool := match d, io_dir e with DIn, DIn | DOut, DOut | DInout, DInout => true | _, _ => false end.
(** [isInput], [isOutput], [isInOut], src/Blueprint.h. *)
Definition declared (d : dir) (l : list io) (n : string) : bool := existsb (fun e => is_dir d e && String.eqb (io_name e) n) l.
(** [io2idx], 333-353: [insert] keeps the first one. *)
Fixpoint index_of (l : list io) (n : string) : option nat :=
  match l with [] => None | e :: r => if String.eqb (io_name e) n then Some 0%nat else option_map S (index_of r n) end.

(** [isAccessTrigger], 254-273; only asked for outputs. *)
Definition trigger_of (l : list io) (n : string) : option string :=
  if String.eqb (substring 0 3 n) "on_" then
    let v := substring 3 (String.length n - 3) n in
    if declared DIn l v || declared DOut l v || declared DInout l v then Some v else None
  else None.

(** What is written for each input or output, 355-404: its port, and its part of $io_reads$, $io_writes$ or $on_accessed$. *)
Inductive part :=
  | PRead (k : nat) (v : string)              (* | (ior_k ? v : 32b0) *)
  | PWrite (k : nat) (v : string)             (* v = iow_k ? memio.wdata : v; *)
  | POnRead (v : string) (k : nat)            (* v = io_read & ior_k; *)
  | POnWrite (v : string) (k : nat).          (* v = io_write & iow_k; *)
(** "input uint<width> v" or "output uint<width> v(0)". *)
Record port := { p_out : bool; p_signed : bool; p_width : Z; p_name : string }.
Definition one_part (l : list io) (k : nat) (e : io) : option part :=
  match io_dir e with
  | DIn => Some (PRead k (io_name e))
  | DOut =>
      match trigger_of l (io_name e) with
      | None => Some (PWrite k (io_name e))
      | Some a =>
          if io_width e =? 1 then
            match index_of l a with
            | Some j => if declared DIn l a then Some (POnRead (io_name e) j) else if declared DOut l a then Some (POnWrite (io_name e) j) else None
            | None => None (* assertion, 379 *)
            end
          else None
      end
  | DInout => None
  end.
Definition one_port (e : io) : port := {| p_out := match io_dir e with DOut => true | _ => false end; p_signed := false; p_width := io_width e; p_name := io_name e |}.
Fixpoint parts_from (l : list io) (k : nat) (r : list io) : option (list part) :=
  match r with
  | [] => Some []
  | e :: r' => match one_part l k e, parts_from l (S k) r' with Some p, Some ps => Some (p :: ps) | _, _ => None end
  end.

(** The unit: C functions with their addresses (getters and setters of an input or output have the same one), ports, code. [None]: an error. *)
Record soc := { c_mem : Z; c_addrs : list (string * Z); c_ports : list port; c_parts : list part }.
Definition make (mem : Z) (l : list io) : option soc :=
  match riscv_c_addresses mem (List.length l), parts_from l 0 l with
  | Some a, Some p => Some {| c_mem := mem; c_addrs := combine (map io_name l) a; c_ports := map one_port l; c_parts := p |}
  | _, _ => None
  end.
(** What the C code can call: a getter for inputs, a setter for outputs (triggers included), 289-308. *)
Definition has_getter (e : io) : bool := match io_dir e with DOut => false | _ => true end.
Definition has_setter (e : io) : bool := match io_dir e with DIn => false | _ => true end.

(** * The system, cycle by cycle *)

(** What the processor puts on its memory port in a cycle. *)
Record bus := { b_addr : Z; b_wen : Z (* 4 bits *); b_wdata : Z (* 32 bits *) }.
(** Registers: the previous address and direction, outputs, the bytes of the memory (word, byte), the word it read. *)
Record state := { s_addr : Z; s_rw : bool; s_out : string -> Z; s_mem : Z -> Z -> Z; s_read : Z }.

Definition io_bit (addr : Z) (k : nat) : bool := Z.testbit addr (Z.of_nat k).
Definition width_of (ps : list port) (v : string) : Z := match find (fun p => String.eqb (p_name p) v) ps with Some p => p_width p | None => 0 end.
Definition setv (o : string -> Z) (v : string) (n : Z) : string -> Z := fun x => if String.eqb x v then n else o x.
Definition word (m : Z -> Z -> Z) (w : Z) : Z := m w 0 + 256 * (m w 1 + 256 * (m w 2 + 256 * m w 3)).

Section cycle.
  Context (c : soc).
  (** $external$, 407: a peripheral. *)
  Definition external (addr : Z) : bool := Z.testbit addr (external_bit (c_mem c)).
  Definition io_write (b : bus) : bool := external (b_addr b) && negb (b_wen b =? 0).
  Definition io_read (s : state) : bool := external (s_addr s) && negb (s_rw s).
  (** riscv-soc.si, $on_accessed$. *)
  Definition do_trigger (s : state) (b : bus) (o : string -> Z) (p : part) : string -> Z :=
    match p with
    | POnRead v k => setv o v (Z.b2z (io_read s && io_bit (s_addr s) k))
    | POnWrite v k => setv o v (Z.b2z (io_write b && io_bit (b_addr b) k))
    | _ => o
    end.
  (** $io_writes$, in a conditional; the assigned bits are those of the output. *)
  Definition do_write (b : bus) (o : string -> Z) (p : part) : string -> Z :=
    match p with
    | PWrite k v => setv o v (if io_bit (b_addr b) k then b_wdata b mod 2 ^ width_of (c_ports c) v else o v)
    | _ => o
    end.
  (** $io_reads$: an expression of at least 32 bits, assigned to a 32 bits variable. *)
  Definition read_part (s : state) (i : string -> Z) (p : part) : Z :=
    match p with PRead k v => if io_bit (s_addr s) k then i v else 0 | _ => 0 end.
  Definition io_reads (s : state) (i : string -> Z) : Z := fold_left (fun a p => Z.lor a (read_part s i p)) (c_parts c) 0 mod 2 ^ 32.
  (** mem.addr = memio.addr: the memory has an address of the width made for $memsz$ entries (C22), shorter than the one of the processor. *)
  Definition mem_addr (addr : Z) : Z := addr mod 2 ^ mem_addr_width (c_mem c / 4).
  (** memio.rdata, then the next values of the registers; the memory is that of bram_wmask_byte.v.in. *)
  Definition rdata (s : state) (i : string -> Z) : Z := if io_read s then io_reads s i else s_read s.
  Definition step (s : state) (i : string -> Z) (b : bus) : state :=
    let o := fold_left (do_trigger s b) (c_parts c) (s_out s) in
    {| s_addr := b_addr b;
       s_rw := negb (b_wen b =? 0);
       s_out := if io_write b then fold_left (do_write b) (c_parts c) o else o;
       s_mem := fun w k => if negb (external (b_addr b)) && (w =? mem_addr (b_addr b)) && Z.testbit (b_wen b) k then b_wdata b / 256 ^ k mod 256 else s_mem s w k;
       s_read := word (s_mem s) (mem_addr (b_addr b)) |}.
  (** Initial values: uint$addrW$ prev_mem_addr(0), uint1 prev_mem_rw(0), outputs (0). *)
  Definition init (m : Z -> Z -> Z) (r : Z) : state := {| s_addr := 0; s_rw := false; s_out := fun _ => 0; s_mem := m; s_read := r |}.
  Definition run (s : state) (l : list ((string -> Z) * bus)) : state := fold_left (fun s p => step s (fst p) (snd p)) l s.
End cycle.
