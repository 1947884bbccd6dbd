(** Temporaries which become Verilog macros: variables stable in the cycle. *)
From Coq Require Import List Bool Arith ZArith.
Import ListNotations.
From Verif Require Import FsmModel FsmRun UseModel.
From Verif Require DepModel.

(** * Variables stable in the cycle *)
(** stable_in_cycle of t_vio_usage, src/Algorithm.h 407: a map, [None] when there is no entry.
    [t_kept] is not in the code: variables [x] left as they are by a write of [w] because the row of [x] has both e_D and e_Q at [w]. *)
Record sst := { t_dep : DepModel.deps; t_st : var -> option bool; t_kept : var -> bool }.
Definition st_set (st : var -> option bool) (x : var) (b : bool) : var -> option bool := fun y => if Nat.eqb y x then Some b else st y.

(** [updateUsageStableInCycle], src/Algorithm.cpp 4934-4960, one written variable [w]. [before]: written before, [d]: dependencies after. *)
Definition st_write (before : var -> bool) (d : DepModel.deps) (w : var) (st : var -> option bool) : var -> option bool :=
  let st1 := if before w then st_set st w false else match st w with None => st_set st w true | Some _ => st end in
  fun o => match st1 o with
           | Some b => if DepModel.written d o && DepModel.present (DepModel.dep d o w) && negb (DepModel.fQ (DepModel.dep d o w))
                       then Some false else Some b
           | None => None
           end.
Definition kept_write (d : DepModel.deps) (w : var) (k : var -> bool) : var -> bool := fun o =>
  k o || (DepModel.written d o && DepModel.fD (DepModel.dep d o w) && DepModel.fQ (DepModel.dep d o w)).

(** [combineUsageInto], src/Algorithm.cpp 5093-5126. *)
Definition num_stable (brs : list (var -> option bool)) (x : var) : nat :=
  fold_left (fun k (br : var -> option bool) => match br x with Some true => S k | Some false => 2 | None => k end) brs 0.
Definition combine_st (before : var -> option bool) (brs : list (var -> option bool)) : var -> option bool := fun x =>
  match before x with
  | Some false => Some false
  | Some true => Some (forallb (fun br : var -> option bool => match br x with Some b => b | None => true end) brs)
  | None => if existsb (fun br : var -> option bool => match br x with Some _ => true | None => false end) brs
            then Some (Nat.eqb (num_stable brs x) 1) else None
  end.

(** After a conditional: dependencies merged in the order of the branches [ds], usages combined over [us]. *)
Definition djoin (s : sst) (ds us : list sst) : sst :=
  {| t_dep := fold_left (fun d b => DepModel.merge (t_dep b) d) ds (t_dep s);
     t_st := combine_st (t_st s) (map t_st us);
     t_kept := fun x => t_kept s x || existsb (fun b => t_kept b x) ds |}.

Section Stable.
  Variable n : nat.     (* number of variables *)

  (** [updateAndCheckDependencies], src/Algorithm.cpp 4741-4772 and 4776-4837 (DepModel), for an instruction which reads [r] and writes [x]. *)
  Definition dwrite (x : var) (r : list var) (s : sst) : option sst :=
    do d <- DepModel.update n (t_dep s) {| DepModel.i_read := r; DepModel.i_written := [x] |};
    Some {| t_dep := d; t_st := st_write (DepModel.written (t_dep s)) d x (t_st s); t_kept := kept_write d x (t_kept s) |}.
  Definition dread (r : list var) (s : sst) : option sst :=
    do d <- DepModel.update n (t_dep s) {| DepModel.i_read := r; DepModel.i_written := [] |};
    Some {| t_dep := d; t_st := t_st s; t_kept := t_kept s |}.
  (** Partial access, src/Algorithm.cpp 7523-7529. *)
  Definition unstable (x : var) (s : sst) : sst := {| t_dep := t_dep s; t_st := st_set (t_st s) x false; t_kept := t_kept s |}.

  (** The analysis along [anal] of UseModel: writeStatelessBlockGraph 8788-9199. [None]: combinational cycle reported. *)
  Fixpoint dan (c : ch) (s : sst) {struct c} : option sst :=
    let seq := fix seq (l : list ch) (s : sst) : option sst := match l with [] => Some s | c :: r => do s1 <- dan c s; seq r s1 end in
    match c with
    | KSet x e => dwrite x (evars e) s
    | KPart x _ _ i e => dwrite x (evars i ++ evars e) (unstable x s)
    | KField x _ e => dwrite x (evars e) s
    | KRead e => dread (evars e) s
    | KIdx _ | KRaw _ | KRawIf _ _ _ | KRawCase _ _ => Some s
    | KIf _ a b => do sa <- seq a s; do sb <- seq b s; Some (djoin s [sa; sb] [sa; sb])
    | KCase _ cs =>
        do ss <- (fix all (cs : list (option Z * list ch)) : option (list sst) :=
                    match cs with [] => Some [] | (_, l) :: r => do s1 <- seq l s; do ss <- all r; Some (s1 :: ss) end) cs;
        Some (djoin s ss (if has_default cs then ss else ss ++ [s]))
    | KWhile _ a _ => do sa <- seq a s; Some (djoin s [sa; s] [sa])
    end.
  Fixpoint dans (l : list ch) (s : sst) : option sst := match l with [] => Some s | c :: r => do s1 <- dan c s; dans r s1 end.
  Fixpoint dan_cases (cs : list (option Z * list ch)) (s : sst) : option (list sst) :=
    match cs with [] => Some [] | (_, l) :: r => do s1 <- dans l s; do ss <- dan_cases r s; Some (s1 :: ss) end.
  Fixpoint dan_states (cs : list (nat * list ch)) (s : sst) : option (list sst) :=
    match cs with [] => Some [] | (_, l) :: r => do s1 <- dans l s; do ss <- dan_states r s; Some (s1 :: ss) end.

  Definition s_none : sst := {| t_dep := DepModel.no_deps; t_st := fun _ => None; t_kept := fun _ => false |}.

  (** writeAsModule, src/Algorithm.cpp 10460-10605, with writeCombinationalStates 8314-8415. The rows inserted in the dependencies of the
      always_after block at the inner ends of a state are taken at its end. Last, 10598-10605, nothing is added. *)
  Definition module_stable (m : kmod) : option sst :=
    do s1 <- dans (k_pre m) s_none;
    do ss <- dan_states (k_states m) s1;
    let s2 := match ss with [] => s1 | _ => djoin s1 ss ss end in
    dans (k_post m) s2.

  (** Second part of the demotion, src/Algorithm.cpp 9605-9626. [part]: variables accessed in part when read, or in the cases of a onehot switch
      (7523-7529, 8953). *)
  Definition made_define (vars part : var -> bool) (m : kmod) (x : var) : bool :=
    demoted vars (o_use (module_use (fun _ => false) m)) x && negb (part x)
    && match module_stable m with Some s => match t_st s x with Some b => b | None => false end | None => false end.
  (** Rows with e_D and e_Q met while the analysis decides on [x]. *)
  Definition mixed (m : kmod) (x : var) : bool := match module_stable m with Some s => t_kept s x | None => false end.
End Stable.

(** * The second writing: assignments of such a variable become macros, reads name the macro *)
Section Macros.
  Variable def : var -> bool.

  (** Assignments in the order in which they are written. *)
  Fixpoint vsets (c : vst) : list (var * vexp) :=
    let all := fix all (l : list vst) : list (var * vexp) := match l with [] => [] | c :: r => vsets c ++ all r end in
    match c with
    | VSet x e => [(x, e)]
    | VIdx _ => []
    | VIf _ a b => all a ++ all b
    | VCase _ cs => (fix go (cs : list (option Z * list vst)) : list (var * vexp) := match cs with [] => [] | (_, l) :: r => all l ++ go r end) cs
    end.
  Definition lvsets (l : list vst) : list (var * vexp) := concat (map vsets l).

  (** writeAssignement, src/Algorithm.cpp 7589-7597: `undef and `define, all written before the module (10630). The size cast of vioAsDefine
      (1509-1535) is part of the expression here; see DefineText. Later definitions replace earlier ones. *)
  Definition macros (o : kout) : list (var * vexp) :=
    filter (fun a => def (fst a)) (lvsets (o_pre o) ++ concat (map (fun a => lvsets (snd a)) (o_arms o)) ++ lvsets (o_post o)).
  Fixpoint last_def (x : var) (l : list (var * vexp)) : option vexp :=
    match l with
    | [] => None
    | (y, t) :: r => match last_def x r with Some t' => Some t' | None => if Nat.eqb y x then Some t else None end
    end.

  (** Expansion of the macros named in a text; [None]: undefined macro, or expansion without end. *)
  Fixpoint expand (fuel : nat) (l : list (var * vexp)) (e : vexp) : option vexp :=
    match fuel with
    | O => None
    | S f =>
        (fix go (e : vexp) : option vexp :=
           match e with
           | VC _ | VQ _ => Some e
           | VD x => if def x then do t <- last_def x l; expand f l t else Some e
           | VU g a => do a' <- go a; Some (VU g a')
           | VB g a b => do a' <- go a; do b' <- go b; Some (VB g a' b')
           end) e
    end.
  Definition fuel_for (l : list (var * vexp)) : nat := S (S (length l)).

  (** The text once the macros are expanded. *)
  Section Sub.
    Variable ex : vexp -> option vexp.
    Fixpoint exput (c : vst) : option (list vst) :=
      let all := fix all (l : list vst) : option (list vst) :=
        match l with [] => Some [] | c :: r => do c1 <- exput c; do c2 <- all r; Some (c1 ++ c2) end in
      match c with
      | VSet x e => if def x then Some [] else do e' <- ex e; Some [VSet x e']
      | VIdx n => Some [VIdx n]
      | VIf e a b => do e' <- ex e; do a' <- all a; do b' <- all b; Some [VIf e' a' b']
      | VCase e cs =>
          do e' <- ex e;
          do cs' <- (fix go (cs : list (option Z * list vst)) : option (list (option Z * list vst)) :=
                       match cs with [] => Some [] | (v, l) :: r => do l' <- all l; do r' <- go r; Some ((v, l') :: r') end) cs;
          Some [VCase e' cs']
      end.
    Fixpoint exputs (l : list vst) : option (list vst) := match l with [] => Some [] | c :: r => do c1 <- exput c; do c2 <- exputs r; Some (c1 ++ c2) end.
    Fixpoint exput_arms (l : list (nat * list vst)) : option (list (nat * list vst)) :=
      match l with [] => Some [] | (k, c) :: r => do c' <- exputs c; do r' <- exput_arms r; Some ((k, c') :: r') end.
  End Sub.

  Definition with_macros (o : kout) : option kout :=
    let l := macros o in
    let ex := expand (fuel_for l) l in
    do a <- exputs ex (o_pre o); do b <- exput_arms ex (o_arms o); do c <- exputs ex (o_post o);
    Some {| o_pre := a; o_arms := b; o_post := c; o_use := o_use o |}.
  (** What a combinational output or a bound input reading [x] sees, when [D] are the values at the end of the cycle. *)
  Definition seen (o : kout) (Q D : store) (x : var) : option Z :=
    let l := macros o in do t <- expand (fuel_for l) l (VD x); Some (veval Q D t).
End Macros.
