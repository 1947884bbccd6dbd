(** Which side of a register is used: recording the uses of D and Q while the code is written, demotion to temporaries. *)
From Coq Require Import List Bool Arith ZArith.
Import ListNotations.
From Verif Require Import FsmModel.

(** * e_FFUsage, src/Algorithm.h 154-158: a set of flags D, Q, Latch, NoLatch. *)
Record fl := { fD : bool; fQ : bool; fL : bool; fN : bool }.
Definition fl0 : fl := {| fD := false; fQ := false; fL := false; fN := false |}.
(** ff_usage of t_vio_usage, src/Algorithm.h 405. No entry: [fl0] (entries are only created together with the flag D or Q). *)
Definition usage := var -> fl.
Definition uset (u : usage) (x : var) (f : fl) : usage := fun y => if Nat.eqb y x then f else u y.

(** [updateFFUsage], src/Algorithm.cpp 4974-4992, with e_Q, with e_D. *)
Definition upd_q (f : fl) : fl := {| fD := fD f; fQ := true; fL := fL f; fN := fN f |}.
Definition upd_d (read : bool) (f : fl) : fl := {| fD := true; fQ := fQ f || (read && fL f); fL := fL f; fN := fN f |}.

(** [clearNoLatchFFUsage], src/Algorithm.cpp 4996-5001. *)
Definition clear_nolatch (u : usage) : usage := fun x => {| fD := fD (u x); fQ := fQ (u x); fL := fL (u x); fN := false |}.

(** [combineUsageInto], src/Algorithm.cpp 5005-5091, part on ff_usage. [exact_d]: e_D or e_D|e_NoLatch. *)
Definition exact_d (f : fl) : bool := fD f && negb (fQ f) && negb (fL f).
Definition d_in_all (brs : list usage) (x : var) : bool :=
  match brs with [] => false | _ => forallb (fun br : usage => exact_d (br x)) brs end.
Definition combine (before : usage) (brs : list usage) : usage := fun x =>
  {| fD := fD (before x) || existsb (fun br : usage => fD (br x)) brs;
     fQ := fQ (before x) || existsb (fun br : usage => fQ (br x)) brs
           || (existsb (fun br : usage => fD (br x) && negb (fQ (br x))) brs && fL (before x));
     fL := existsb (fun br : usage => (fD (br x) || fN (br x)) && negb (fQ (br x))) brs && negb (fN (before x)) && negb (d_in_all brs x);
     fN := d_in_all brs x |}.

(** * What is written between two clock edges: the instructions of the blocks visited by writeStatelessBlockGraph, with its conditionals.
    [KSet]: x = e. [KPart]: x\[i,n\] = e, the new value is a function of the value of x, of i and of e ([g] can be any injection of pairs).
    [KField]: Bf(x).m = e, the new value is a function of the value of x and of e. [KRead]: instructions which only read, __display.
    [KIdx]: assignment of the index of the state machine. [KRaw], [KRawIf]: text naming registers and wires which are not
    variables of the source (caller ids, done signals).
    [KWhile]: while loop at the beginning of a state when what follows the loop is another state. *)
Inductive ch :=
| KSet (x : var) (e : expr)
| KPart (x : var) (g h : Z -> Z -> Z) (i e : expr)
| KField (x : var) (h : Z -> Z -> Z) (e : expr)
| KRead (e : expr)
| KIdx (n : nat)
| KRaw (l : list (var * vexp))
| KRawIf (e : vexp) (a b : list ch)
| KRawCase (e : vexp) (cs : list (option Z * list ch))
| KIf (e : expr) (a b : list ch)
| KCase (e : expr) (cs : list (option Z * list ch))
| KWhile (e : expr) (a : list ch) (n : nat).

Section Anal.
  Variable tmp : var -> bool.    (* variables having the usage e_Temporary *)

  (** [rewriteIdentifier] when reading, src/Algorithm.cpp 1634-1670 : D side when written before or temporary, Q side otherwise. *)
  Fixpoint krw (deps : list var) (e : expr) : vexp :=
    match e with
    | EC n => VC n
    | EV x => if tmp x || memb x deps then VD x else VQ x
    | EU f a => VU f (krw deps a)
    | EB f a b => VB f (krw deps a) (krw deps b)
    end.
  Fixpoint kread (deps : list var) (e : expr) (u : usage) : usage :=
    match e with
    | EC _ => u
    | EV x => uset u x (if tmp x || memb x deps then upd_d true (u x) else upd_q (u x))
    | EU _ a => kread deps a u
    | EB _ a b => kread deps b (kread deps a u)
    end.
  (** [rewriteIdentifier] with FF_D, e_Write. *)
  Definition kwrite (x : var) (u : usage) : usage := uset u x (upd_d false (u x)).

  Definition has_default {A} (cs : list (option Z * A)) : bool := existsb (fun c => match fst c with None => true | Some _ => false end) cs.

  (** Writing the chain: the code, the variables written, the usage.
      writeAssignement 7536-7610 (the assigned variable first, then the expression), updateAndCheckDependencies 4741-4800,
      writePartSelect 7477-7507, writeBitfieldAccess 7434-7471; if 8834-8897, switch 8898-8977 (not onehot), while 8978-9020,
      return 9021-9056, call 9057-9076, wait 9077-9099 in writeStatelessBlockGraph. *)
  Fixpoint anal (c : ch) (s : list var * usage) {struct c} : list vst * (list var * usage) :=
    let seq := fix seq (l : list ch) (s : list var * usage) : list vst * (list var * usage) :=
      match l with [] => ([], s) | c :: r => let (c1, s1) := anal c s in let (c2, s2) := seq r s1 in (c1 ++ c2, s2) end in
    let (deps, u) := s in
    match c with
    | KSet x e => ([VSet x (krw deps e)], (x :: deps, kread deps e (kwrite x u)))
    | KPart x g h i e =>
        let u1 := kwrite x (kread deps i u) in
        let u2 := uset u1 x (upd_q (u1 x)) in
        ([VSet x (VB h (VB g (VD x) (krw deps i)) (krw deps e))], (x :: deps, kread deps e u2))
    | KField x h e => ([VSet x (VB h (VD x) (krw deps e))], (x :: deps, kread deps e (kwrite x u)))
    | KRead e => ([], (deps, kread deps e u))
    | KIdx n => ([VIdx n], s)
    | KRaw l => (map (fun a => VSet (fst a) (snd a)) l, s)
    | KRawIf e a b =>
        let (ca, _) := seq a s in let (cb, _) := seq b s in
        ([VIf e ca cb], s)
    | KRawCase e cs =>
        ([VCase e ((fix all (cs : list (option Z * list ch)) : list (option Z * list vst) :=
            match cs with [] => [] | (v, l) :: r => (v, fst (seq l s)) :: all r end) cs)], s)
    | KIf e a b =>
        let u1 := kread deps e u in
        let (ca, sa) := seq a (deps, u1) in
        let (cb, sb) := seq b (deps, u1) in
        ([VIf (krw deps e) ca cb], (deps ++ fst sa ++ fst sb, combine u1 [snd sa; snd sb]))
    | KCase e cs =>
        let u1 := kread deps e u in
        let '(bs, d, us) := (fix all (cs : list (option Z * list ch)) : list (option Z * list vst) * list var * list usage :=
          match cs with
          | [] => ([], [], [])
          | (v, l) :: r =>
              let (c1, s1) := seq l (deps, u1) in
              let '(bs, d, us) := all r in
              ((v, c1) :: bs, fst s1 ++ d, snd s1 :: us)
          end) cs in
        ([VCase (krw deps e) bs], (deps ++ d, combine u1 (if has_default cs then us else us ++ [u1])))
    | KWhile e a n =>
        let u1 := kread deps e u in
        let (ca, sa) := seq a (deps, u1) in
        ([VIf (krw deps e) ca [VIdx n]], (deps ++ fst sa ++ deps, combine u1 [snd sa]))
    end.

  Fixpoint anals (l : list ch) (s : list var * usage) : list vst * (list var * usage) :=
    match l with [] => ([], s) | c :: r => let (c1, s1) := anal c s in let (c2, s2) := anals r s1 in (c1 ++ c2, s2) end.
  Fixpoint anal_cases (cs : list (option Z * list ch)) (s : list var * usage) : list (option Z * list vst) * list var * list usage :=
    match cs with
    | [] => ([], [], [])
    | (v, l) :: r =>
        let (c1, s1) := anals l s in
        let '(bs, d, us) := anal_cases r s in
        ((v, c1) :: bs, fst s1 ++ d, snd s1 :: us)
    end.
  Definition raw_cases (cs : list (option Z * list ch)) (s : list var * usage) : list (option Z * list vst) :=
    map (fun c => (fst c, fst (anals (snd c) s))) cs.

  (** * A unit: always_before block, states (number, chain), always_after block. *)
  Record kmod := { k_pre : list ch; k_states : list (nat * list ch); k_post : list ch;
                   k_q : var -> bool;       (* variables read on their Q side by outputs and bindings: 10030-10048, 10475-10484 *)
                   k_d : list var }.        (* variables read on their D side by combinational outputs and bindings *)

  (** writeAsModule, src/Algorithm.cpp 10460-10605, with writeCombinationalAlwaysPre 8184-8300 and writeCombinationalStates 8314-8415.
      [fsm]: not hasNoFSM. Result: code of the three parts, final usage. *)
  Definition u_start (m : kmod) : usage := fun x => if k_q m x then upd_q fl0 else fl0.
  Definition post_usage (m : kmod) : usage := fun x => if memb x (k_d m) then upd_d false fl0 else fl0.

  Record kout := { o_pre : list vst; o_arms : list (nat * list vst); o_post : list vst; o_use : usage }.

  Definition module_use (m : kmod) : kout :=
    let (cpre, spre) := anals (k_pre m) ([], u_start m) in
    let deps := fst spre in
    let u1 := clear_nolatch (snd spre) in
    let sts := map (fun a => (fst a, anals (snd a) (deps, u1))) (k_states m) in
    let u2 := match k_states m with [] => u1 | _ => combine u1 (map (fun a => clear_nolatch (snd (snd (snd a)))) sts) end in
    let pdeps := deps ++ concat (map (fun a => fst (snd (snd a))) sts) in
    let (cpost, spost) := anals (k_post m) (pdeps, u2) in
    let u3 := clear_nolatch (snd spost) in
    {| o_pre := cpre; o_arms := map (fun a => (fst a, fst (snd a))) sts; o_post := cpost;
       o_use := clear_nolatch (combine u3 [post_usage m]) |}.
End Anal.
Arguments kmod : clear implicits.

(** Demotion, src/Algorithm.cpp 9594-9612, of variables written in the source which are not tables: entries without e_Q.
    [vars]: the variables (not the registers named by [KRaw]). *)
Definition used (f : fl) : bool := fD f || fQ f || fL f || fN f.
Definition demoted (vars : var -> bool) (u : usage) (x : var) : bool := vars x && used (u x) && negb (fQ (u x)).

(** * One clock cycle of the circuit: D = Q on registers, temporaries from their initial value [ini] (8272-8296),
    always_before, the state selected by the index (0 is the termination state), always_after. *)
Definition kcycle (o : kout) (Q D : store) (idx : nat) : option (store * nat) :=
  let (D1, i1) := vexecs Q (o_pre o) (D, idx) in
  do (D2, i2) <- (match o_arms o with
                  | [] => Some (D1, i1)
                  | arms => if Nat.eqb idx 0 then Some (D1, i1) else do c <- arm_of idx arms; Some (vexecs Q c (D1, i1))
                  end);
  Some (vexecs Q (o_post o) (D2, i2)).
(** D at the beginning of the cycle. *)
Definition d_start (tmp : var -> bool) (ini Q : store) : store := fun x => if tmp x then ini x else Q x.
