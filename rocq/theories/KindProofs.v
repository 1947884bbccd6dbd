(** Every read sees the last write of the cycle: all kinds of variables and accesses. *)
From Coq Require Import List Bool Arith ZArith Lia.
From Verif Require Import KindModel.
Import ListNotations.
Local Open Scope Z_scope.

Scheme expr_ind3 := Induction for expr Sort Prop with entry_ind3 := Induction for entry Sort Prop with sel_ind3 := Induction for sel Sort Prop.
Combined Scheme expr_mutind from expr_ind3, entry_ind3, sel_ind3.

(** * Specification: the writes of a cycle, in order *)

(** A write: variable, entry, first bit, number of bits, value. *)
Record event := { e_x : var; e_i : Z; e_o : Z; e_n : Z; e_v : Z }.
Definition covers (e : event) (x : var) (i k : Z) : bool := Nat.eqb x (e_x e) && (i =? e_i e) && (e_o e <=? k) && (k <? e_o e + e_n e).

Section spec.
  Context (decls : var -> decl) (unk : mem).
  (** The value a bit has at the beginning of the cycle. *)
  Context (first : mem).

  (** The bit given by the last write to it, else its first value. The last event is first in the list. *)
  Fixpoint current (evs : list event) (x : var) (i k : Z) : bool :=
    match evs with [] => first x i k | e :: r => if covers e x i k then Z.testbit (e_v e) (k - e_o e) else current r x i k end.
  (** What is outside of the variable is unknown. *)
  Definition seen (evs : list event) (x : var) (i k : Z) : bool := if inside decls x i k then current evs x i k else unk x i k.

  (** Expressions of the source. *)
  Fixpoint value (evs : list event) (e : expr) : Z :=
    match e with
    | EC n => n
    | EU f a => f (value evs a)
    | EB f a b => f (value evs a) (value evs b)
    | ERead x i s =>
        let j := entry_value evs i in
        match s with
        | SAll => number (d_signed (decls x)) (seen evs x j) (d_width (decls x))
        | SPart e n => let o := value evs e in number false (fun k => seen evs x j (o + k)) n
        | SField sg o w => number sg (fun k => seen evs x j (o + k)) w
        | SFieldPart sg o w e n => let a := value evs e in number sg (fun k => seen evs x j (a + o + k)) n
        end
    end
  with entry_value (evs : list event) (i : entry) : Z := match i with INone => 0 | IAt e => value evs e end.
  Definition sel_range (evs : list event) (x : var) (s : sel) : Z * Z :=
    match s with
    | SAll => (0, d_width (decls x))
    | SPart e n => (value evs e, n)
    | SField _ o w => (o, w)
    | SFieldPart _ o _ e n => (value evs e + o, n)
    end.
  (** Statements add their writes. *)
  Fixpoint exec (evs : list event) (s : stmt) : list event :=
    let run := fix run (evs : list event) (l : list stmt) : list event := match l with [] => evs | s :: r => run (exec evs s) r end in
    match s with
    | SAssign x i s e => let (o, n) := sel_range evs x s in {| e_x := x; e_i := entry_value evs i; e_o := o; e_n := n; e_v := value evs e |} :: evs
    | SIf e a b => if value evs e =? 0 then run evs b else run evs a
    end.
  Fixpoint execs (evs : list event) (l : list stmt) : list event := match l with [] => evs | s :: r => execs (exec evs s) r end.
End spec.

(** What is assigned: flip-flops and temporaries. *)
Fixpoint fine (decls : var -> decl) (s : stmt) : bool :=
  match s with
  | SAssign x _ _ _ =>
      match d_kind (decls x) with KFlip | KTemp => true | _ => false end
  | SIf _ a b => forallb (fine decls) a && forallb (fine decls) b
  end.

Section proofs.
  Context (decls : var -> decl) (unk : mem).

  (** The signal holding the first value of a variable. *)
  Definition first_of (q t0 i c w : mem) : mem :=
    fun x => match d_kind (decls x) with KFlip => q x | KTemp => t0 x | KInput => i x | KConst => c x | KWire => w x end.

  Context (q t0 inp cst wir : mem).
  Let first := first_of q t0 inp cst wir.
  Definition own (s : signals) (x : var) : mem :=
    match d_kind (decls x) with KFlip => m_d s | KTemp => m_t s | KInput => m_i s | KConst => m_c s | KWire => m_w s end.
  Record inv (evs : list event) (deps : list var) (s : signals) : Prop := {
    inv_q : m_q s = q; inv_i : m_i s = inp; inv_c : m_c s = cst; inv_w : m_w s = wir;
    inv_own : forall x i k, inside decls x i k = true -> own s x x i k = current first evs x i k;
    inv_dep : forall x i k, inside decls x i k = true -> memb x deps = false -> current first evs x i k = first x i k }.

  Lemma number_ext : forall sg n f g, (forall k, f k = g k) -> number sg f n = number sg g n.
  Proof.
    intros sg n f g H. unfold number. assert (E : forall m f g, (forall k, f k = g k) -> bits f m = bits g m).
    { induction m as [|m IH]; intros f' g' H'; [reflexivity|]. cbn [bits]. rewrite H', (IH (fun k => f' (k + 1)) (fun k => g' (k + 1))); [reflexivity|]. intro k. apply H'. }
    rewrite (E _ f g H), H. reflexivity.
  Qed.

  Lemma look_seen : forall evs deps s x i k, inv evs deps s ->
    look decls unk (cell_of s (signal false (memb x deps) (d_kind (decls x)))) x i k = seen decls unk first evs x i k.
  Proof.
    intros evs deps s x i k I. unfold look, seen. destruct (inside decls x i k) eqn:E; [|reflexivity].
    rewrite <- (inv_own _ _ _ I x i k E). unfold own. destruct (d_kind (decls x)) eqn:K; cbn [signal cell_of]; try reflexivity.
    destruct (memb x deps) eqn:M; [reflexivity|]. cbn [cell_of]. rewrite (inv_q _ _ _ I).
    pose proof (inv_own _ _ _ I x i k E) as O. unfold own in O. rewrite K in O. rewrite O, (inv_dep _ _ _ I x i k E M).
    unfold first, first_of. rewrite K. reflexivity.
  Qed.

  Lemma rewrite_read : forall deps x i r, rewrite decls deps (ERead x i r) =
    if shape_ok decls x i then
      match rewrite_entry decls deps i, rewrite_sel decls deps r with
      | Some i', Some (p, sg) => Some (VRead (signal false (memb x deps) (d_kind (decls x))) x i' p sg)
      | _, _ => None
      end
    else None.
  Proof. reflexivity. Qed.
  Lemma rewrite_at : forall deps e, rewrite_entry decls deps (IAt e) = option_map VAt (rewrite decls deps e). Proof. reflexivity. Qed.
  Lemma rewrite_part : forall deps e n, rewrite_sel decls deps (SPart e n) = option_map (fun v => (VPart v n, false)) (rewrite decls deps e). Proof. reflexivity. Qed.
  Lemma rewrite_fpart : forall deps sg o w e n, rewrite_sel decls deps (SFieldPart sg o w e n) = if sg then None else option_map (fun v => (VPart (VB Z.add v (VC o)) n, sg)) (rewrite decls deps e).
  Proof. reflexivity. Qed.
  Lemma veval_read : forall s c x i p sg, veval decls unk s (VRead c x i p sg) =
    let j := ventry_of decls unk s i in
    match p with
    | VAll => number (d_signed (decls x) || sg) (look decls unk (cell_of s c) x j) (d_width (decls x))
    | VPart e n => let o := veval decls unk s e in number sg (fun k => look decls unk (cell_of s c) x j (o + k)) n
    end.
  Proof. reflexivity. Qed.
  Lemma value_read : forall evs x i s, value decls unk first evs (ERead x i s) =
    let j := entry_value decls unk first evs i in
    match s with
    | SAll => number (d_signed (decls x)) (seen decls unk first evs x j) (d_width (decls x))
    | SPart e n => let o := value decls unk first evs e in number false (fun k => seen decls unk first evs x j (o + k)) n
    | SField sg o w => number sg (fun k => seen decls unk first evs x j (o + k)) w
    | SFieldPart sg o w e n => let a := value decls unk first evs e in number sg (fun k => seen decls unk first evs x j (a + o + k)) n
    end.
  Proof. reflexivity. Qed.
  Lemma rewrite_ok : forall evs deps s, inv evs deps s ->
    (forall e v, rewrite decls deps e = Some v -> veval decls unk s v = value decls unk first evs e) /\
    (forall i v, rewrite_entry decls deps i = Some v -> ventry_of decls unk s v = entry_value decls unk first evs i) /\
    (forall r p sg x, rewrite_sel decls deps r = Some (p, sg) -> range_of decls unk s x p = sel_range decls unk first evs x r /\
       (forall j, (forall k, look decls unk (cell_of s (signal false (memb x deps) (d_kind (decls x)))) x j k = seen decls unk first evs x j k) ->
        match p with
        | VAll => number (d_signed (decls x) || sg) (look decls unk (cell_of s (signal false (memb x deps) (d_kind (decls x)))) x j) (d_width (decls x))
        | VPart e n => let o := veval decls unk s e in number sg (fun k => look decls unk (cell_of s (signal false (memb x deps) (d_kind (decls x)))) x j (o + k)) n
        end =
        match r with
        | SAll => number (d_signed (decls x)) (seen decls unk first evs x j) (d_width (decls x))
        | SPart e n => let o := value decls unk first evs e in number false (fun k => seen decls unk first evs x j (o + k)) n
        | SField sg o w => number sg (fun k => seen decls unk first evs x j (o + k)) w
        | SFieldPart sg o w e n => let a := value decls unk first evs e in number sg (fun k => seen decls unk first evs x j (a + o + k)) n
        end)).
  Proof.
    intros evs deps s I. apply expr_mutind.
    - intros n v H. injection H as <-. reflexivity.
    - intros f a IH v H. cbn [rewrite] in H. destruct (rewrite decls deps a) as [a'|]; [|discriminate]. injection H as <-. cbn [veval value]. rewrite (IH _ eq_refl). reflexivity.
    - intros f a IHa b IHb v H. cbn [rewrite] in H. destruct (rewrite decls deps a) as [a'|]; [|discriminate]. destruct (rewrite decls deps b) as [b'|]; [|discriminate].
      injection H as <-. cbn [veval value]. rewrite (IHa _ eq_refl), (IHb _ eq_refl). reflexivity.
    - intros x i IHi r IHr v H. rewrite rewrite_read in H. destruct (shape_ok decls x i); [|discriminate]. destruct (rewrite_entry decls deps i) as [i'|]; [|discriminate].
      destruct (rewrite_sel decls deps r) as [[p sg]|]; [|discriminate]. injection H as <-. rewrite veval_read, value_read. cbv zeta. rewrite (IHi _ eq_refl).
      apply (proj2 (IHr p sg x eq_refl)). intro k. apply (look_seen evs deps s x _ k I).
    - intros v H. injection H as <-. reflexivity.
    - intros e IH v H. rewrite rewrite_at in H. destruct (rewrite decls deps e) as [e'|]; [|discriminate]. cbn [option_map] in H. injection H as <-. exact (IH _ eq_refl).
    - intros p sg x H. injection H as <- <-. split; [reflexivity|]. intros j L. rewrite orb_false_r. apply number_ext. intro k. apply L.
    - intros e IH n p sg x H. rewrite ?rewrite_part, ?rewrite_fpart in H. destruct (rewrite decls deps e) as [e'|]; [|discriminate]. cbn [option_map] in H. injection H as <- <-. cbn [range_of sel_range]. rewrite (IH _ eq_refl).
      split; [reflexivity|]. intros j L. cbv zeta. apply number_ext. intro k. apply L.
    - intros [|] o w p sg x H; [discriminate|]. injection H as <- <-. split; [reflexivity|]. intros j L. cbn [veval]. cbv zeta. apply number_ext. intro k. apply L.
    - intros [|] o w e IH n p sg x H; rewrite ?rewrite_part, ?rewrite_fpart in H; [discriminate|]. destruct (rewrite decls deps e) as [e'|]; [|discriminate]. cbn [option_map] in H. injection H as <- <-. cbn [range_of sel_range veval]. rewrite (IH _ eq_refl).
      split; [reflexivity|]. intros j L. cbv zeta. apply number_ext. intro k. apply L.
  Qed.

  Lemma assign_ok : forall evs deps s x i r e c, inv evs deps s -> write_assign decls deps x i r e = Some c -> fine decls (SAssign x i r e) = true ->
    exists s', vexec decls unk s c = Some s' /\ inv (exec decls unk first evs (SAssign x i r e)) (x :: deps) s'.
  Proof.
    intros evs deps s x i r e c I W F. destruct (rewrite_ok evs deps s I) as (RE & RI & RS). unfold write_assign in W.
    assert (X : exists i' p e', rewrite_entry decls deps i = Some i' /\ rewrite_sel decls deps r = Some (p, false) /\ rewrite decls deps e = Some e' /\
                c = VSet (signal true (memb x deps) (d_kind (decls x))) x i' p false e').
    {
      assert (W' : (if shape_ok decls x i then match rewrite_entry decls deps i, rewrite_sel decls deps r, rewrite decls deps e with
          | Some i', Some (p, sg), Some e' => Some (VSet (signal true (memb x deps) (d_kind (decls x))) x i' p sg e') | _, _, _ => None end else None) = Some c)
        by (destruct (d_kind (decls x)); [discriminate W| | | |]; exact W).
      destruct (shape_ok decls x i); [|discriminate]. destruct (rewrite_entry decls deps i) as [i'|]; [|discriminate]. destruct (rewrite_sel decls deps r) as [[p sg]|] eqn:ES; [|discriminate].
      destruct (rewrite decls deps e) as [e'|]; [|discriminate]. exists i', p, e'. assert (sg = false) as ->; [|repeat split; congruence].
      destruct r as [|e0 n|sg0 o w|sg0 o w e0 n]; rewrite ?rewrite_part, ?rewrite_fpart in ES.
      - cbn [rewrite_sel] in ES. congruence.
      - destruct (rewrite decls deps e0); [|discriminate]. cbn [option_map] in ES. congruence.
      - destruct sg0; cbn [rewrite_sel] in ES; congruence.
      - destruct sg0; [discriminate ES|]. destruct (rewrite decls deps e0); [|discriminate]. cbn [option_map] in ES. congruence. }
    destruct X as (i' & p & e' & EI & ES & EE & ->). cbn [vexec]. rewrite (proj1 (RS r p false x ES)). rewrite (RI i i' EI), (RE e e' EE).
    cbn [exec]. destruct (sel_range decls unk first evs x r) as [o n]. set (j := entry_value decls unk first evs i). set (v := value decls unk first evs e).
    cbn [fine] in F.
    assert (OWN : forall m y i0 k, inside decls y i0 k = true -> m y i0 k = current first evs y i0 k ->
              put decls m x j o n v y i0 k = current first ({| e_x := x; e_i := j; e_o := o; e_n := n; e_v := v |} :: evs) y i0 k).
    { intros m y i0 k E M. unfold put. cbn [current]. unfold covers. cbn [e_x e_i e_o e_n e_v]. destruct (Nat.eqb_spec y x) as [->|]; cbn [andb]; [|exact M].
      destruct (Z.eqb_spec i0 j) as [->|]; cbn [andb]; [|exact M]. rewrite E. cbn [andb]. destruct ((o <=? k) && (k <? o + n)); [reflexivity|exact M]. }
    assert (DEP : forall y i0 k, inside decls y i0 k = true -> memb y (x :: deps) = false ->
              current first ({| e_x := x; e_i := j; e_o := o; e_n := n; e_v := v |} :: evs) y i0 k = first y i0 k).
    { intros y i0 k E M. cbn [memb existsb] in M. apply orb_false_iff in M. destruct M as [M1 M2]. cbn [current]. unfold covers. cbn [e_x]. rewrite M1. cbn [andb]. exact (inv_dep _ _ _ I y i0 k E M2). }
    assert (OTHER : forall y i0 k, y <> x -> current first ({| e_x := x; e_i := j; e_o := o; e_n := n; e_v := v |} :: evs) y i0 k = current first evs y i0 k).
    { intros y i0 k N. cbn [current]. unfold covers. cbn [e_x]. destruct (Nat.eqb_spec y x); [congruence|]. reflexivity. }
    destruct I as [I1 I2 I3 I4 I5 I6]. destruct (d_kind (decls x)) eqn:K; try discriminate F; cbn [signal vset]; eexists; (split; [reflexivity|]); constructor; cbn [m_q m_i m_c m_w]; try assumption.
    - intros y i0 k E. unfold own. cbn [m_q m_d m_t m_i m_c m_w]. pose proof (I5 y i0 k E) as H5. unfold own in H5. destruct (d_kind (decls y)) eqn:KY;
      try (apply OWN; assumption); rewrite OTHER by congruence; exact H5.
    - intros y i0 k E. unfold own. cbn [m_q m_d m_t m_i m_c m_w]. pose proof (I5 y i0 k E) as H5. unfold own in H5. destruct (d_kind (decls y)) eqn:KY;
      try (apply OWN; assumption); rewrite OTHER by congruence; exact H5.
  Qed.

  Lemma memb_app : forall x a b, memb x (a ++ b) = memb x a || memb x b. Proof. intros x a b. apply existsb_app. Qed.
  Lemma inv_weaken : forall evs d d' s, inv evs d s -> (forall x, memb x d' = false -> memb x d = false) -> inv evs d' s.
  Proof. intros evs d d' s [] H. constructor; auto. Qed.

  Definition write_all := fix all (deps : list var) (l : list stmt) : option (list vstmt * list var) :=
    match l with
    | [] => Some ([], deps)
    | s :: r => match write decls deps s with Some (c, d) => match all d r with Some (cs, d') => Some (c :: cs, d') | None => None end | None => None end
    end.
  Lemma write_all_eq : forall l deps, write_all deps l = writes decls deps l.
  Proof. induction l as [|s l IH]; intro deps; [reflexivity|]. cbn [write_all writes]. destruct (write decls deps s) as [[c d]|]; [|reflexivity]. rewrite IH. reflexivity. Qed.
  Definition run_all := fix run (s : signals) (l : list vstmt) : option signals :=
    match l with [] => Some s | c :: r => match vexec decls unk s c with Some s' => run s' r | None => None end end.
  Lemma run_all_eq : forall l s, run_all s l = vexecs decls unk s l.
  Proof. induction l as [|c l IH]; intro s; [reflexivity|]. cbn [run_all vexecs]. destruct (vexec decls unk s c); [apply IH|reflexivity]. Qed.
  Definition exec_all := fix run (evs : list event) (l : list stmt) : list event := match l with [] => evs | s :: r => run (exec decls unk first evs s) r end.
  Lemma exec_all_eq : forall l evs, exec_all evs l = execs decls unk first evs l.
  Proof. induction l as [|c l IH]; intro s; [reflexivity|]. cbn [exec_all execs]. apply IH. Qed.

  Fixpoint stmt_size (s : stmt) : nat := match s with SAssign _ _ _ _ => 1 | SIf _ a b => S (list_sum (map stmt_size a) + list_sum (map stmt_size b)) end.
  Lemma size_pos : forall s, (1 <= stmt_size s)%nat. Proof. destruct s; cbn; lia. Qed.

  Lemma write_grows : forall n s deps c d, (stmt_size s <= n)%nat -> write decls deps s = Some (c, d) -> forall x, memb x d = false -> memb x deps = false.
  Proof.
    intros n s deps c d _ W x M. destruct s as [y i r e|e a b]; cbn [write] in W.
    - destruct (write_assign decls deps y i r e); [|discriminate]. injection W as <- <-. cbn [memb existsb] in M. apply orb_false_iff in M. tauto.
    - destruct (rewrite decls deps e); [|discriminate]. change (match write_all deps a with Some (ca, da) => match write_all deps b with Some (cb, db) => Some (VIf v ca cb, deps ++ da ++ db) | None => None end | None => None end = Some (c, d)) in W.
      destruct (write_all deps a) as [[ca da]|]; [|discriminate]. destruct (write_all deps b) as [[cb db]|]; [|discriminate]. injection W as <- <-.
      rewrite memb_app in M. apply orb_false_iff in M. tauto.
  Qed.

  Lemma write_ok : forall n,
    (forall s evs deps sg c d, (stmt_size s <= n)%nat -> inv evs deps sg -> write decls deps s = Some (c, d) -> fine decls s = true ->
       exists sg', vexec decls unk sg c = Some sg' /\ inv (exec decls unk first evs s) d sg') /\
    (forall l evs deps sg c d, (list_sum (map stmt_size l) <= n)%nat -> inv evs deps sg -> writes decls deps l = Some (c, d) -> forallb (fine decls) l = true ->
       exists sg', vexecs decls unk sg c = Some sg' /\ inv (execs decls unk first evs l) d sg').
  Proof.
    induction n as [|n [IHs IHl]].
    - split; [intros s ? ? ? ? ? L; pose proof (size_pos s); lia|]. intros [|s l] evs deps sg c d L I W F; [|cbn in L; pose proof (size_pos s); lia].
      injection W as <- <-. exists sg. split; [reflexivity|exact I].
    - assert (P : forall s evs deps sg c d, (stmt_size s <= S n)%nat -> inv evs deps sg -> write decls deps s = Some (c, d) -> fine decls s = true ->
       exists sg', vexec decls unk sg c = Some sg' /\ inv (exec decls unk first evs s) d sg').
      { intros s evs deps sg c d L I W F. destruct s as [x i r e|e a b].
        - cbn [write] in W. destruct (write_assign decls deps x i r e) as [c0|] eqn:E; [|discriminate]. cbn [option_map] in W. injection W as <- <-. exact (assign_ok evs deps sg x i r e c0 I E F).
        - cbn [write] in W. destruct (rewrite decls deps e) as [e'|] eqn:EE; [|discriminate].
          change (match write_all deps a with Some (ca, da) => match write_all deps b with Some (cb, db) => Some (VIf e' ca cb, deps ++ da ++ db) | None => None end | None => None end = Some (c, d)) in W.
          destruct (write_all deps a) as [[ca da]|] eqn:EA; [|discriminate]. destruct (write_all deps b) as [[cb db]|] eqn:EB; [|discriminate]. rewrite write_all_eq in EA, EB. injection W as <- <-.
          cbn [fine] in F. apply andb_true_iff in F. destruct F as [Fa Fb]. cbn [stmt_size] in L.
          change (exec decls unk first evs (SIf e a b)) with (if value decls unk first evs e =? 0 then exec_all evs b else exec_all evs a).
          change (vexec decls unk sg (VIf e' ca cb)) with (if veval decls unk sg e' =? 0 then run_all sg cb else run_all sg ca).
          rewrite !exec_all_eq, !run_all_eq. rewrite (proj1 (rewrite_ok evs deps sg I) e e' EE). destruct (value decls unk first evs e =? 0).
          + destruct (IHl b evs deps sg cb db ltac:(lia) I EB Fb) as (sg' & X & Y). exists sg'. split; [exact X|]. apply inv_weaken with (1 := Y). intros x M. rewrite !memb_app in M. apply orb_false_iff in M. destruct M as [_ M]. apply orb_false_iff in M. tauto.
          + destruct (IHl a evs deps sg ca da ltac:(lia) I EA Fa) as (sg' & X & Y). exists sg'. split; [exact X|]. apply inv_weaken with (1 := Y). intros x M. rewrite !memb_app in M. apply orb_false_iff in M. destruct M as [_ M]. apply orb_false_iff in M. tauto. }
      split; [exact P|]. intros [|s l] evs deps sg c d L I W F.
      + injection W as <- <-. exists sg. split; [reflexivity|exact I].
      + cbn [writes] in W. destruct (write decls deps s) as [[c0 d0]|] eqn:E0; [|discriminate]. destruct (writes decls d0 l) as [[cs d']|] eqn:E1; [|discriminate]. injection W as <- <-.
        cbn [forallb] in F. apply andb_true_iff in F. destruct F as [F0 F1]. cbn [map list_sum fold_right] in L. change (fold_right Init.Nat.add 0%nat (map stmt_size l)) with (list_sum (map stmt_size l)) in L. pose proof (size_pos s).
        destruct (P s evs deps sg c0 d0 ltac:(lia) I E0 F0) as (sg' & X & Y). cbn [vexecs execs]. rewrite X. exact (IHl l _ d0 sg' cs d' ltac:(lia) Y E1 F1).
  Qed.

  Lemma start_inv : forall deps, inv [] deps (start q t0 inp cst wir).
  Proof.
    intro deps. constructor; try reflexivity. intros x i k E. unfold own, first, first_of, current, start. destruct (d_kind (decls x)); reflexivity.
  Qed.
End proofs.
