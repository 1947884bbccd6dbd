(** Block memories: the templates, the widths of their ports, the clocks, and an algorithm with a memory. *)
From Coq Require Import String List Bool Arith ZArith.
Import ListNotations.
From Verif Require Import FsmModel FsmRun RegModel WidthModel.
Local Open Scope Z_scope.

(** * Vectors *)
(** Number of bits of [w-1:0]: the range [-1:0] has two. *)
Definition vwidth (w : Z) : Z := if w =? 0 then 2 else w.
Definition vec (w v : Z) : Z := v mod 2 ^ vwidth w.
(** [v[i]] in [w-1:0]: outside of the range the value is x, and a test of it is false. *)
Definition vbit (w v i : Z) : bool := (if w =? 0 then i =? 0 else i <? w) && Z.testbit (vec w v) i.
(** [old[lo+:g] <= v[lo+:g]]. *)
Definition set_part (old lo g v : Z) : Z :=
  Z.lor (Z.ldiff old (Z.shiftl (Z.ones g) lo)) (Z.shiftl (Z.land (Z.shiftr v lo) (Z.ones g)) lo).

(** * Templates, frameworks/templates *)
(** How a port writes: never, whole words, or by parts of [g] bits selected by the bits of wenable. *)
Inductive wport := NoWrite | Word | Mask (g : Z).
(** What the output of a port becomes: the entry, the entry unless the port is writing, the value written if it is writing, nothing (never assigned). *)
Inductive rport := NoRead | ReadAlways | ReadIdle | ReadThrough.
(** One always block per port and per direction, each at the edges of the clock of its port. *)
Record tmpl := { t_w0 : wport; t_w1 : wport; t_r0 : rport; t_r1 : rport }.
(** bram_generic.v.in 10-22: under SIMULATION, and 23-29: otherwise. *)
Definition bram_sim : tmpl := {| t_w0 := Word; t_w1 := NoWrite; t_r0 := ReadThrough; t_r1 := NoRead |}.
Definition bram_syn : tmpl := {| t_w0 := Word; t_w1 := NoWrite; t_r0 := ReadAlways; t_r1 := NoRead |}.
(** brom_generic.v.in 8-10. *)
Definition brom : tmpl := {| t_w0 := NoWrite; t_w1 := NoWrite; t_r0 := ReadAlways; t_r1 := NoRead |}.
(** bram_wmask_byte.v.in 10-20. *)
Definition bram_wmask : tmpl := {| t_w0 := Mask 8; t_w1 := NoWrite; t_r0 := ReadAlways; t_r1 := NoRead |}.
(** dualport_bram_generic.v.in 15-28. *)
Definition dual : tmpl := {| t_w0 := Word; t_w1 := Word; t_r0 := ReadIdle; t_r1 := ReadIdle |}.
(** dualport_bram_altera.v.in 15-28. *)
Definition dual_altera : tmpl := {| t_w0 := Word; t_w1 := Word; t_r0 := ReadThrough; t_r1 := ReadThrough |}.
(** dualport_bram_wmask_byte.v.in 15-35. *)
Definition dual_wmask : tmpl := {| t_w0 := Mask 8; t_w1 := Mask 8; t_r0 := ReadAlways; t_r1 := ReadAlways |}.
(** simple_dualport_bram_generic.v.in 13-20, the same in simple_dualport_bram_generic_rw.v.in. The output rdata1 is declared and never assigned. *)
Definition simple : tmpl := {| t_w0 := NoWrite; t_w1 := Word; t_r0 := ReadAlways; t_r1 := NoRead |}.
(** simple_dualport_bram_wmask_byte.v.in 13-23, simple_dualport_bram_wmask_half_bytes.v.in 13-23. *)
Definition simple_wmask : tmpl := {| t_w0 := NoWrite; t_w1 := Mask 8; t_r0 := ReadAlways; t_r1 := NoRead |}.
Definition simple_half : tmpl := {| t_w0 := NoWrite; t_w1 := Mask 4; t_r0 := ReadAlways; t_r1 := NoRead |}.

(** The numbers given to the template: size, widths of the address, of the data, of wenable0 and wenable1. *)
Record dims := { d_size : nat; d_aw : Z; d_dw : Z; d_we0 : Z; d_we1 : Z }.
(** A port during a cycle: whether there is an edge of its clock, and its inputs. *)
Record pin := { p_edge : bool; p_we : Z; p_wd : Z; p_ad : Z }.
(** Both ports. When both clocks have an edge the writes of the two always blocks are made in any order: [c_last] is the port whose write is last
    (false: port 0). [c_x]: what is read out of the buffer. *)
Record cyc := { c_p0 : pin; c_p1 : pin; c_last : bool; c_x : Z }.
Record mem := { m_buf : nat -> Z; m_o0 : Z; m_o1 : Z }.

Definition portw (t : tmpl) (p : bool) : wport := if p then t_w1 t else t_w0 t.
Definition portr (t : tmpl) (p : bool) : rport := if p then t_r1 t else t_r0 t.
Definition wew (d : dims) (p : bool) : Z := if p then d_we1 d else d_we0 d.
Definition ppin (c : cyc) (p : bool) : pin := if p then c_p1 c else c_p0 c.
Definition m_out (s : mem) (p : bool) : Z := if p then m_o1 s else m_o0 s.
Definition address (d : dims) (i : pin) : nat := Z.to_nat (vec (d_aw d) (p_ad i)).

(** for (i = 0; i < W/g; i = i+1) if (in_wenable[i]) buffer[addr][i*g+:g] <= in_wdata[i*g+:g], wenable being declared [(WENABLE_WIDTH)/g-1:0]. *)
Fixpoint mask_loop (g : Z) (w we wd : Z) (n : nat) (old : Z) : Z :=
  match n with
  | O => old
  | S n' => let o := mask_loop g w we wd n' old in
      if vbit (w / g) we (Z.of_nat n') then set_part o (Z.of_nat n' * g) g wd else o
  end.
(** The entry written by a port, given the entry before the edge. *)
Definition write_entry (d : dims) (w : wport) (ww : Z) (i : pin) (old : Z) : Z :=
  match w with
  | NoWrite => old
  | Word => if truth (vec ww (p_we i)) then vec (d_dw d) (p_wd i) else old
  | Mask g => mask_loop g ww (p_we i) (vec (d_dw d) (p_wd i)) (Z.to_nat (d_dw d / g)) old
  end.
(** Non blocking assignments: a write outside of the buffer is ignored. Parts which are not written keep the value given by the write made before. *)
Definition do_write (d : dims) (t : tmpl) (c : cyc) (p : bool) (b : nat -> Z) : nat -> Z :=
  let i := ppin c p in
  if p_edge i && (address d i <? d_size d)%nat
  then fun a => if (a =? address d i)%nat then write_entry d (portw t p) (wew d p) i (b a) else b a
  else b.
Definition new_buf (d : dims) (t : tmpl) (c : cyc) (b : nat -> Z) : nat -> Z :=
  do_write d t c (c_last c) (do_write d t c (negb (c_last c)) b).
Definition writing (d : dims) (t : tmpl) (p : bool) (i : pin) : bool :=
  match portw t p with Word => truth (vec (wew d p) (p_we i)) | _ => false end.
Definition read (d : dims) (b : nat -> Z) (x : Z) (i : pin) : Z := if (address d i <? d_size d)%nat then b (address d i) else x.
Definition new_out (d : dims) (t : tmpl) (c : cyc) (p : bool) (s : mem) : Z :=
  let i := ppin c p in
  if p_edge i then
    match portr t p with
    | NoRead => m_out s p
    | ReadAlways => read d (m_buf s) (c_x c) i
    | ReadIdle => if writing d t p i then m_out s p else read d (m_buf s) (c_x c) i
    | ReadThrough => if writing d t p i then vec (d_dw d) (p_wd i) else read d (m_buf s) (c_x c) i
    end
  else m_out s p.
Definition mem_step (d : dims) (t : tmpl) (s : mem) (c : cyc) : mem :=
  {| m_buf := new_buf d t c (m_buf s); m_o0 := new_out d t c false s; m_o1 := new_out d t c true s |}.
Fixpoint mem_at (d : dims) (t : tmpl) (h : nat -> cyc) (n : nat) (s : mem) : mem :=
  match n with O => s | S n' => mem_step d t (mem_at d t h n' s) (h n') end.
(** initial begin buffer[v] = init_values[v]; ... end, src/Algorithm.cpp 9489-9497; the other entries are unknown ([u]). *)
Definition initial (d : dims) (l : list Z) (u : nat -> Z) (a : nat) : Z := match nth_error l a with Some v => vec (d_dw d) v | None => u a end.

(** * Widths *)
Definition config := string -> option string.
Definition key (a b c : string) : string := (a ++ "_" ++ b ++ c)%string.
(** gatherDeclarationMemory, src/Algorithm.cpp 987-998: width of the variable of a member. [w]: width of the memory. Other values leave the width of the
    declaration of t_type_nfo, 0 (src/TypesAndConsts.h 55). *)
Definition config_value (cfg : config) (custom memid name sfx : string) : option string :=
  let c := cfg (key custom name sfx) in
  let c := match c with None => None | Some v => if String.eqb custom "" then None else Some v end in
  match c with None => cfg (key memid name sfx) | Some v => Some v end.
Definition decl_width (cfg : config) (custom memid name : string) (w : Z) : Z :=
  match config_value cfg custom memid name "_width" with
  | None => w
  | Some v => if String.eqb v "1" then 1 else if String.eqb v "data" then w else 0
  end.
(** prepareModuleMemoryTemplateReplacements, 9454-9467: the text that replaces NAME_WIDTH. [None]: no text, the port is declared [-1:0]. *)
Definition port_width (cfg : config) (custom memid name : string) (w : Z) : option Z :=
  match config_value cfg custom memid name "_width" with
  | None => Some w
  | Some v => if String.eqb v "1" then Some 1 else if String.eqb v "data" then Some w else None
  end.

(** * Clocks *)
Inductive mtype := BRAM | BROM | DUALBRAM | SIMPLEDUALBRAM.
Definition two_ports (t : mtype) : bool := match t with DUALBRAM | SIMPLEDUALBRAM => true | _ => false end.
Inductive outcome (A : Type) := Done (x : A) | Refused | Asserts.
Arguments Done {A}. Arguments Refused {A}. Arguments Asserts {A}.
(** Modifiers of the declaration, 948-966: pairs of clocks, each appended to the list when both names are known. *)
Definition gather_clocks (known : string -> bool) (mods : list (string * string)) : outcome (list string) :=
  fold_left (fun r m => match r with
    | Done l => if known (fst m) && known (snd m) then Done (l ++ [fst m; snd m])%list else Refused
    | x => x end) mods (Done []).
(** Instantiation, 10316-10336: what is connected to the clocks. *)
Definition connect_clocks (t : mtype) (clk : string) (clocks : list string) : outcome (list (string * string)) :=
  match clocks with
  | [] => Done (if two_ports t then [("clock0", clk); ("clock1", clk)]%string else [("clock", clk)]%string)
  | _ => match clocks with
         | [a; b] => if two_ports t then Done [("clock0", a); ("clock1", b)]%string else Asserts
         | _ => Asserts
         end
  end.

(** * An algorithm with a memory *)
(** gatherDeclarationMemory 1014-1026, instantiation 10338-10358: the inputs of the memory are connected to variables, which are registers; the outputs
    are read as variables. Both ports on the clock of the algorithm. [v_rd p], [v_we p], [v_wd p], [v_ad p]: variables of port [p]. *)
Record mvars := { v_rd : bool -> var; v_we : bool -> var; v_wd : bool -> var; v_ad : bool -> var }.
Definition access (v : mvars) (p : bool) (s : store) : pin := {| p_edge := true; p_we := s (v_we v p); p_wd := s (v_wd v p); p_ad := s (v_ad v p) |}.
Definition accesses (v : mvars) (last : bool) (x : Z) (s : store) : cyc := {| c_p0 := access v false s; c_p1 := access v true s; c_last := last; c_x := x |}.
(** The variables of the outputs at the beginning of a cycle. *)
Definition see (v : mvars) (o : bool -> Z) (s : store) : store := upd (upd s (v_rd v false) (o false)) (v_rd v true) (o true).
Section System.
  Variables (a : alg) (m : fsm) (vr : var -> option upd_rhs) (inp pre : nat -> store -> store) (reset run : nat -> bool).
  (** [delayed]: the memory sees the values at the beginning of the cycle (Q), otherwise those at its end (D), 10341-10343. *)
  Variables (d : dims) (t : tmpl) (v : mvars) (delayed : bool) (last : nat -> bool) (x : nat -> Z).
  Definition begin_q (n : nat) (s : mod_st) (M : mem) : store := see v (m_out M) (inp n (m_q s)).
  Definition seen (q D : store) : store := if delayed then q else D.
  Definition sys_step (n : nat) (w : mod_st * mem) : option (mod_st * mem) :=
    let (s, M) := w in
    let q := begin_q n s M in
    do (D, i) <- cycle m q (pre n q) (m_idx s);
    Some ({| m_q := mod_edge vr (reset n) (run n) D; m_idx := idx_edge a (reset n) (m_auto s) (run n) (f_entry m) i; m_auto := auto_edge (reset n) |},
          mem_step d t M (accesses v (last n) (x n) (seen q D))).
  Fixpoint sys_run (n : nat) (w : mod_st * mem) : option (mod_st * mem) :=
    match n with O => Some w | S n' => do w' <- sys_run n' w; sys_step n' w' end.
End System.
