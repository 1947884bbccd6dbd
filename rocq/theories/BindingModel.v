(** Bit-range bindings of instance outputs and inouts. *)
From Coq Require Import ZArith List Bool.
Import ListNotations.
Local Open Scope Z_scope.

(** One entry of [m_VIOBoundToBlueprintOutputs[var]] after
    [splitBitBindings]/[splitBinding], src/Algorithm.cpp 1431-1453: wire, first
    bit, width. Simplification: the C++ keeps the entries in one string
    [";wire,first,width;..."] and parses it back; wires (never the empty string,
    line 6304) are numbers here. *)
Record bit_binding := mkBB { bb_wire : nat; bb_first : Z; bb_width : Z }.

(** Inner loop of [Algorithm::rewriteBinding], src/Algorithm.cpp 1474-1486: which
    binding covers [bit]; the outer [None] is the error "bound to multiple outputs". *)
Fixpoint which_binding (bs : list bit_binding) (bit : Z) (which : option (nat * Z)) : option (option (nat * Z)) :=
  match bs with
  | [] => Some which
  | r :: bs' =>
      if (bit >=? bb_first r) && (bit <=? bb_first r + bb_width r - 1) then
        match which with
        | None => which_binding bs' bit (Some (bb_wire r, bit - bb_first r))
        | Some _ => None
        end
      else which_binding bs' bit which
  end.

(** Element of the emitted concatenation: [1'b0] or [wire[k+:1]]. *)
Inductive celem := CZero | CBit (wire : nat) (k : Z).

(** Outer loop of [rewriteBinding], src/Algorithm.cpp 1470-1494, over bits
    [0 .. ibw-1]: each element is put in front of the previous ones. *)
Fixpoint rewrite_loop (n : nat) (bit : Z) (bs : list bit_binding) (concat : list celem) : option (list celem) :=
  match n with
  | O => Some concat
  | S n' =>
      match which_binding bs bit None with
      | None => None
      | Some w => rewrite_loop n' (bit + 1) bs
                    ((match w with None => CZero | Some (x, k) => CBit x k end) :: concat)
      end
  end.

(** [Algorithm::rewriteBinding] for a variable of width [ibw] bound range by
    range, src/Algorithm.cpp 1455-1500: elements, first is most significant. *)
Definition rewriteBinding (ibw : nat) (bs : list bit_binding) : option (list celem) :=
  rewrite_loop ibw 0 bs [].

(** Verilog value of a concatenation of single bits, [rho] gives the wires. *)
Definition celem_val (rho : nat -> Z) (e : celem) : bool :=
  match e with CZero => false | CBit w k => Z.testbit (rho w) k end.
Definition celems_val (rho : nat -> Z) (l : list celem) : Z :=
  fold_left (fun acc e => 2 * acc + Z.b2z (celem_val rho e)) l 0.

(** Recording of an output binding, src/Algorithm.cpp 6301-6317: state of
    [m_VIOBoundToBlueprintOutputs] for one variable. [BWhole] is a bare wire,
    [BParts] a [';']-prefixed list, [BGarbled] a wire to which a range was
    appended ([+=] on a string not starting with [';']). *)
Inductive bound_state := BNone | BWhole (w : nat) | BParts (l : list bit_binding) | BGarbled.

Definition record_output (st : bound_state) (w : nat) (range : option (Z * Z)) : option bound_state :=
  match range with
  | Some (f, n) =>
      Some (match st with
            | BNone => BParts [mkBB w f n]
            | BParts l => BParts (l ++ [mkBB w f n])
            | BWhole _ | BGarbled => BGarbled
            end)
  | None => match st with BNone => Some (BWhole w) | _ => None end
  end.

Fixpoint record_outputs (st : bound_state) (l : list (nat * option (Z * Z))) : option bound_state :=
  match l with
  | [] => Some st
  | (w, r) :: l' => match record_output st w r with Some st' => record_outputs st' l' | None => None end
  end.

(** ** Inouts *)

(** Direction of a binding: only inputs ([e_Left]/[e_LeftQ]) are distinguished. *)
Record io_binding := mkIO { io_first : Z; io_width : Z; io_point : nat; io_left : bool }.

(** Lexicographic order on [v2i] keys of the [std::map]. *)
Definition range_lt (a b : Z * Z) : bool :=
  (fst a <? fst b) || ((fst a =? fst b) && (snd a <? snd b)).
Definition range_eq (a b : Z * Z) : bool := (fst a =? fst b) && (snd a =? snd b).
Definition io_range (b : io_binding) : Z * Z := (io_first b, io_width b).

(** [std::map::insert] keyed by the range, src/Algorithm.cpp 6323, 6354, 6361:
    an entry whose key is already present is not inserted. *)
Fixpoint map_insert (b : io_binding) (m : list io_binding) : list io_binding :=
  match m with
  | [] => [b]
  | c :: m' => if range_lt (io_range b) (io_range c) then b :: c :: m'
               else if range_eq (io_range b) (io_range c) then c :: m'
               else c :: map_insert b m'
  end.

Definition bound_map (bs : list io_binding) : list io_binding :=
  fold_left (fun m b => map_insert b m) bs [].

(** Overlap check, src/Algorithm.cpp 6370-6382; [false] is [reportError]. *)
Fixpoint overlap_loop (m : list io_binding) (prev_bit : Z) : bool :=
  match m with
  | [] => true
  | b :: m' => if io_left b then overlap_loop m' prev_bit
               else if io_first b =? prev_bit then false
               else overlap_loop m' (prev_bit + io_width b)
  end.

(** [if (size() < 2) continue;], src/Algorithm.cpp 6368. *)
Definition inout_ranges_ok (bs : list io_binding) : bool :=
  let m := bound_map bs in
  if Nat.ltb (length m) 2 then true else overlap_loop m (-1).
