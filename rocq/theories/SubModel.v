(** Subroutines: gathering, caller ids, return states. The blocks, the numbering of the states and their writing are those of FsmModel. *)
From Coq Require Import List Bool Arith ZArith.
Import ListNotations.
From Verif Require Import FsmModel.

(** * Source programs with subroutines. Labels, gotos and waits are left out (see FsmModel).
    [CCall n ins outs]: '(..) <- n <- (..)': [ins] assigns the inputs, [outs] reads the outputs back.
    [CSub n l]: declaration of a subroutine with its body; [CFwd n]: 'subroutine n;'. Declarations can be placed anywhere in a list of instructions
    (antlr/silice.g4 443-457). *)
Inductive cst :=
| CAssign (x : var) (e : expr)
| CBlock (l : list cst)
| CIf (e : expr) (l : list cst)
| CIfElse (e : expr) (l1 l2 : list cst)
| CSwitch (e : expr) (cases : list (option Z * list cst))
| CWhile (e : expr) (l : list cst)
| CBreak
| CStep
| CCall (n : nat) (ins outs : list (var * expr))
| CReturn
| CSub (n : nat) (l : list cst)
| CFwd (n : nat).

(** * Gathering. [c_sub]: context.subroutine of the blocks. [c_subs]: m_Subroutines: name, top block, body_parsed. *)
Record cgst := { c_g : gst; c_sub : nat -> option nat; c_subs : list (nat * (nat * bool)) }.

Section Gather.
  Variable caller : var.           (* the register ALG_CALLER *)
  Variable save : nat -> var.      (* the registers <subroutine>_caller *)

  Definition with_g (s : cgst) (g : gst) : cgst := {| c_g := g; c_sub := c_sub s; c_subs := c_subs s |}.
  (** [addBlock], src/Algorithm.cpp 375-415: the new block has the subroutine of its parent. *)
  Definition add_in (l : option nat) (s : cgst) : nat * cgst :=
    let (b, g) := add_block (c_g s) in (b, {| c_g := g; c_sub := fset (c_sub s) b l; c_subs := c_subs s |}).
  Definition c_add (parent : nat) (s : cgst) : nat * cgst := add_in (c_sub s parent) s.
  Definition cfind (n : nat) (s : cgst) : option (nat * bool) :=
    match find (fun x => Nat.eqb (fst x) n) (c_subs s) with Some x => Some (snd x) | None => None end.
  Definition cput (n top : nat) (parsed : bool) (s : cgst) : cgst := {| c_g := c_g s; c_sub := c_sub s; c_subs := (n, (top, parsed)) :: c_subs s |}.
  Definition c_end (s : cgst) (b : nat) (e : endact) : cgst := with_g s (st_end (c_g s) b e).
  Definition c_next (s : cgst) (b n : nat) : cgst := c_end s b (ENext (Some n)).
  Definition c_state (s : cgst) (b : nat) (v : bool) : cgst := with_g s (st_state (c_g s) b v).
  Definition c_ins (s : cgst) (b : nat) (l : list instr) : cgst := with_g s (upd_blk (c_g s) (add_ins (g_blk (c_g s)) b l)).
  Definition assign_all (l : list (var * expr)) : list instr := map (fun r => IAssign (fst r) (snd r)) l.

  (** [gather], src/Algorithm.cpp 3875-4135; the cases common with FsmModel.gather are the same. *)
  Fixpoint cgather (fuel : nat) (brk : option nat) (st : cst) (cur : nat) (s : cgst) {struct st} : option (nat * cgst) :=
    let gseq := (fix gseq (brk : option nat) (l : list cst) (cur : nat) (s : cgst) : option (nat * cgst) :=
      match l with
      | [] => Some (cur, s)
      | x :: r => do (c, s') <- cgather fuel brk x cur s; gseq brk r c s'
      end) in
    let gblock := fun brk l cur s =>
      let (nb, s1) := c_add cur s in
      do (a, s3) <- gseq brk l nb (c_next s1 cur nb);
      let (nx, s4) := c_add cur s3 in
      Some (nx, c_next s4 a nx) in
    match st with
    | CAssign x e => Some (cur, c_ins s cur [IAssign x e])
    | CBlock l => gblock brk l cur s
    | CIf e l =>
        let (ib, s1) := c_add cur s in
        let (eb, s2) := c_add cur s1 in
        do (ia, s3) <- gblock brk l ib s2;
        let (af, s4) := c_add cur s3 in
        let s5 := c_next (c_next s4 ia af) eb af in
        do fl <- stateless fuel (g_blk (c_g s5)) [] [ib];
        Some (af, c_end s5 cur (EIf e ib fl ia eb true eb af))
    | CIfElse e l1 l2 =>
        let (ib, s1) := c_add cur s in
        let (eb, s2) := c_add cur s1 in
        do (ia, s3) <- gblock brk l1 ib s2;
        do (ea, s4) <- gblock brk l2 eb s3;
        let (af, s5) := c_add cur s4 in
        let s6 := c_next (c_next s5 ia af) ea af in
        do fi <- stateless fuel (g_blk (c_g s6)) [] [ib];
        do fe <- stateless fuel (g_blk (c_g s6)) [] [eb];
        Some (af, c_end s6 cur (EIf e ib fi ia eb fe ea af))
    | CSwitch e cs =>
        let (af, s1) := c_add cur s in
        let gcases := (fix gcases (cs : list (option Z * list cst)) (s : cgst) : option (list (option Z * nat) * cgst) :=
          match cs with
          | [] => Some ([], s)
          | (v, l) :: r =>
              let (cb, s1) := c_add cur s in
              do (ca, s2) <- gblock brk l cb s1;
              do (bs, s3) <- gcases r (c_next s2 ca af);
              Some ((v, cb) :: bs, s3)
          end) in
        do (bs, s2) <- gcases cs s1;
        let s3 := c_end s2 cur (ESwitch e bs af) in
        do fl <- (fix all (bs : list (option Z * nat)) : option bool :=
          match bs with
          | [] => Some true
          | (_, b) :: r => do f1 <- stateless fuel (g_blk (c_g s3)) [] [b]; do f2 <- all r; Some (f1 && f2)
          end) bs;
        Some (af, c_state s3 af (negb fl))
    | CWhile e l =>
        let (h, s1) := c_add cur s in
        let s2 := c_next s1 cur h in
        let (it, s3) := c_add cur s2 in
        let (af, s4) := c_add cur s3 in
        do (il, s5) <- gblock (Some af) l it s4;
        let s6 := c_next (with_g s5 (st_last (c_g s5) af)) il h in
        Some (af, c_state (c_end s6 h (EWhile e it af)) h true)
    | CBreak =>
        match brk with
        | None => None
        | Some t => Some (c_add cur (c_state (c_next s cur t) t true))
        end
    | CStep =>
        let (b, s1) := c_add cur s in
        Some (b, c_next (with_g s1 (upd_blk (c_g s1) (set_noskip (set_state (g_blk (c_g s1)) b true) b))) cur b)
    | CCall n ins outs =>                                                      (* gatherSyncExec, 2785-2819; gatherJoinExec 2845-2849 *)
        match cfind n s with
        | None => None                                                        (* call of an algorithm instance: not modelled here *)
        | Some (top, _) =>
            let (af, s1) := c_add cur (c_ins s cur (assign_all ins)) in
            let s2 := c_end (c_state s1 af true) cur (ECall caller (option_map save (c_sub s1 cur)) 0 top af) in
            Some (af, c_ins s2 af (assign_all outs))
        end
    | CReturn =>                                                               (* gatherReturnFrom, 2768-2781 *)
        match c_sub s cur with
        | Some _ =>
            let (nb, s1) := c_add cur (c_end s cur (ERet caller [])) in
            Some (nb, c_state s1 cur true)
        | None => Some (cur, c_ins s cur [IReturn])
        end
    | CFwd n =>                                                                (* gatherSubroutine, 2270-2303 *)
        match c_sub s cur with
        | Some _ => None
        | None =>
            match cfind n s with
            | Some (_, true) => None
            | Some (top, false) => Some (cur, s)
            | None => let (t, s1) := add_in (Some n) s in Some (cur, cput n t false s1)
            end
        end
    | CSub n l =>                                                              (* gatherSubroutine, 2270-2432 *)
        match c_sub s cur with
        | Some _ => None
        | None =>
            do (top, s1) <- match cfind n s with
                            | Some (_, true) => None
                            | Some (top, false) => Some (top, s)
                            | None => Some (add_in (Some n) s)
                            end;
            do (a, s2) <- gseq brk l top s1;
            Some (cur, cput n top true (c_state (c_end s2 a (ERet caller [])) top true))
        end
    end.
  Definition cgather_list (fuel : nat) : option nat -> list cst -> nat -> cgst -> option (nat * cgst) :=
    fix gseq (brk : option nat) (l : list cst) (cur : nat) (s : cgst) : option (nat * cgst) :=
      match l with
      | [] => Some (cur, s)
      | x :: r => do (c, s') <- cgather fuel brk x cur s; gseq brk r c s'
      end.
  Definition cgst0 : cgst := {| c_g := gst0; c_sub := fun _ => None; c_subs := [] |}.

  (** * [analyzeSubroutineCalls], src/Algorithm.cpp 6386-6408: the ids of the calls, in the order of the blocks, and for each subroutine the calls and
      the blocks to return to. *)
  Record calls := { k_next : Z; k_id : nat -> Z; k_ret : nat -> list (Z * nat) }.
  Fixpoint analyze (g : graph) (sub : nat -> option nat) (bs : list nat) (k : calls) : calls :=
    match bs with
    | [] => k
    | b :: r =>
        match b_end (g b) with
        | ECall _ _ _ go rt =>
            analyze g sub r
              {| k_next := (k_next k + 1)%Z; k_id := fset (k_id k) b (k_next k);
                 k_ret := match sub go with Some t => fset (k_ret k) t (k_ret k t ++ [(k_next k, rt)]) | None => k_ret k end |}
        | _ => analyze g sub r k
        end
    end.
  Definition k0 : calls := {| k_next := 0%Z; k_id := fun _ => 0%Z; k_ret := fun _ => [] |}.

  (** The end actions as they are used after the analysis: ids are looked up when writing (9041-9094); a return leads to the return states of the
      calls of its subroutine (Algorithm.h 493-510). *)
  Definition link (sub : nat -> option nat) (k : calls) (g : graph) : graph := fun b =>
    let x := g b in
    {| b_ins := b_ins x; b_state := b_state x; b_noskip := b_noskip x;
       b_end := match b_end x with
                | ECall c sv _ go rt => ECall c sv (k_id k b) go rt
                | ERet c _ => ERet c (map (fun r => (fst r, snd r, option_map save (sub (snd r)))) (match sub b with Some t => k_ret k t | None => [] end))
                | e => e
                end |}.

  Definition csetup (fuel : nat) (p : list cst) : option (gst * (nat -> option nat)) :=
    do (c, s) <- cgather_list fuel None p 0 cgst0;
    Some (upd_blk (c_g s) (link (c_sub s) (analyze (g_blk (c_g s)) (c_sub s) (seq 0 (g_next (c_g s))) k0) (g_blk (c_g s))), c_sub s).

  Definition ccompile (fuel : nat) (deps0 : list var) (p : list cst) : option fsm :=
    do (s, _) <- csetup fuel p;
    do (g, r) <- generate_states fuel s;
    do arms <- write_states fuel g r (g_last s) deps0 [0] [];
    do e <- r_sid r 0;
    Some {| f_arms := arms; f_entry := e; f_max := r_max r |}.
End Gather.
