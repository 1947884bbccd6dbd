(** Layout of the blocks gathered from a list of instructions. *)
From Coq Require Import List Bool Arith ZArith Lia.
Import ListNotations.
From Verif Require Import FsmModel FsmEmit.

(** * Syntactic notions *)
(** No cycle boundary inside. *)
Fixpoint timeless (st : stmt) : bool :=
  match st with
  | SAssign _ _ | SReturn | SLabel _ => true
  | SBlock l => forallb timeless l
  | SIf _ l => forallb timeless l
  | SIfElse _ l1 l2 => forallb timeless l1 && forallb timeless l2
  | SSwitch _ cs => forallb (fun c => forallb timeless (snd c)) cs
  | SWhile _ _ | SBreak | SStep | SGoto _ | SJoin _ _ => false
  end.
Definition timelesss (l : list stmt) : bool := forallb timeless l.

(** A break of the enclosing loop. *)
Fixpoint hasbrk (st : stmt) : bool :=
  match st with
  | SBlock l => existsb hasbrk l
  | SIf _ l => existsb hasbrk l
  | SIfElse _ l1 l2 => existsb hasbrk l1 || existsb hasbrk l2
  | SSwitch _ cs => existsb (fun c => existsb hasbrk (snd c)) cs
  | SBreak => true
  | _ => false
  end.
Definition hasbrks (l : list stmt) : bool := existsb hasbrk l.

(** Targets of the jumps. *)
Fixpoint gotos (st : stmt) : list nat :=
  match st with
  | SBlock l => flat_map gotos l
  | SIf _ l => flat_map gotos l
  | SIfElse _ l1 l2 => flat_map gotos l1 ++ flat_map gotos l2
  | SSwitch _ cs => flat_map (fun c => flat_map gotos (snd c)) cs
  | SWhile _ l => flat_map gotos l
  | SGoto n => [n]
  | _ => []
  end.
Definition gotoss (l : list stmt) : list nat := flat_map gotos l.

(** Labels. *)
Fixpoint labels (st : stmt) : list nat :=
  match st with
  | SBlock l => flat_map labels l
  | SIf _ l => flat_map labels l
  | SIfElse _ l1 l2 => flat_map labels l1 ++ flat_map labels l2
  | SSwitch _ cs => flat_map (fun c => flat_map labels (snd c)) cs
  | SWhile _ l => flat_map labels l
  | SLabel n => [n]
  | _ => []
  end.
Definition labelss (l : list stmt) : list nat := flat_map labels l.

(** No jump (to a label of [T]) enters a branch of a conditional, unless the branch contains a cycle boundary. *)
Definition quietl (T : list nat) (l : list stmt) : bool := negb (timelesss l) || forallb (fun n => negb (memb n T)) (labelss l).
Fixpoint nojump (T : list nat) (st : stmt) : bool :=
  match st with
  | SBlock l => forallb (nojump T) l
  | SIf _ l => quietl T l && forallb (nojump T) l
  | SIfElse _ l1 l2 => quietl T l1 && quietl T l2 && forallb (nojump T) l1 && forallb (nojump T) l2
  | SSwitch _ cs => (negb (forallb (fun c => timelesss (snd c)) cs) || forallb (fun c => quietl T (snd c)) cs) &&
      forallb (fun c => forallb (nojump T) (snd c)) cs
  | SWhile _ l => forallb (nojump T) l
  | _ => true
  end.
Definition nojumps (T : list nat) (l : list stmt) : bool := forallb (nojump T) l.

Section StmtInd.
  Variable P : stmt -> Prop.
  Hypothesis Hassign : forall x e, P (SAssign x e).
  Hypothesis Hblock : forall l, Forall P l -> P (SBlock l).
  Hypothesis Hif : forall e l, Forall P l -> P (SIf e l).
  Hypothesis Hifelse : forall e l1 l2, Forall P l1 -> Forall P l2 -> P (SIfElse e l1 l2).
  Hypothesis Hswitch : forall e cs, Forall (fun c => Forall P (snd c)) cs -> P (SSwitch e cs).
  Hypothesis Hwhile : forall e l, Forall P l -> P (SWhile e l).
  Hypothesis Hbreak : P SBreak.
  Hypothesis Hstep : P SStep.
  Hypothesis Hlabel : forall n, P (SLabel n).
  Hypothesis Hgoto : forall n, P (SGoto n).
  Hypothesis Hreturn : P SReturn.
  Hypothesis Hjoin : forall d rb, P (SJoin d rb).

  Fixpoint stmt_ind' (st : stmt) : P st :=
    let list_ind := (fix list_ind (l : list stmt) : Forall P l :=
      match l with [] => Forall_nil _ | x :: r => Forall_cons _ (stmt_ind' x) (list_ind r) end) in
    match st with
    | SAssign x e => Hassign x e
    | SBlock l => Hblock l (list_ind l)
    | SIf e l => Hif e l (list_ind l)
    | SIfElse e l1 l2 => Hifelse e l1 l2 (list_ind l1) (list_ind l2)
    | SSwitch e cs => Hswitch e cs ((fix cases (cs : list (option Z * list stmt)) : Forall (fun c => Forall P (snd c)) cs :=
        match cs with [] => Forall_nil _ | c :: r => Forall_cons _ (list_ind (snd c)) (cases r) end) cs)
    | SWhile e l => Hwhile e l (list_ind l)
    | SBreak => Hbreak
    | SStep => Hstep
    | SLabel n => Hlabel n
    | SGoto n => Hgoto n
    | SReturn => Hreturn
    | SJoin d rb => Hjoin d rb
    end.
End StmtInd.

(** * Layout
    [tr brk st lo hi b i b' i']: the instruction [st] starts in block [b] after its [i] first instructions, ends in block [b'] after its [i'] first
    instructions, and owns the blocks of ids [lo], ..., [hi]-1. *)
Section Layout.
  Variable G : graph.
  Variable Lb : nat -> nat -> Prop.   (* label, block *)

  Definition full (b i : nat) : Prop := length (b_ins (G b)) = i.
  Definition fresh (b : nat) : Prop := b_state (G b) = false /\ b_noskip (G b) = false.
  Definition nexts (b x : nat) : Prop := b_end (G b) = ENext (Some x).

  Inductive tr : option nat -> stmt -> nat -> nat -> nat -> nat -> nat -> nat -> Prop :=
  | tr_assign brk x e lo b i : nth_error (b_ins (G b)) i = Some (IAssign x e) -> tr brk (SAssign x e) lo lo b i b (S i)
  | tr_return brk lo b i : nth_error (b_ins (G b)) i = Some IReturn -> tr brk SReturn lo lo b i b (S i)
  | tr_block brk l lo hi b i m : trb brk l lo hi b i m -> tr brk (SBlock l) lo hi b i m 0
  | tr_if brk e l lo m b i ia : full b i -> b_end (G b) = EIf e lo (timelesss l) ia (S lo) true (S lo) m ->
      fresh lo -> fresh (S lo) -> trb brk l (S (S lo)) m lo 0 ia -> full ia 0 -> nexts ia m -> full (S lo) 0 -> nexts (S lo) m ->
      b_noskip (G m) = false -> (b_state (G m) = true -> timelesss l = false) ->
      tr brk (SIf e l) lo (S m) b i m 0
  | tr_ifelse brk e l1 l2 lo m1 m b i ia ea : full b i -> b_end (G b) = EIf e lo (timelesss l1) ia (S lo) (timelesss l2) ea m ->
      fresh lo -> fresh (S lo) -> trb brk l1 (S (S lo)) m1 lo 0 ia -> full ia 0 -> nexts ia m ->
      trb brk l2 m1 m (S lo) 0 ea -> full ea 0 -> nexts ea m ->
      b_noskip (G m) = false -> (b_state (G m) = true -> timelesss l1 = false \/ timelesss l2 = false) ->
      tr brk (SIfElse e l1 l2) lo (S m) b i m 0
  | tr_switch brk e cs bs lo hi b i : full b i -> b_end (G b) = ESwitch e bs lo -> trcs brk lo cs bs (S lo) hi ->
      b_noskip (G lo) = false -> b_state (G lo) = negb (timeless (SSwitch e cs)) ->
      tr brk (SSwitch e cs) lo hi b i lo 0
  | tr_while brk e l lo hi b i il : full b i -> nexts b lo -> b_state (G lo) = true -> b_noskip (G lo) = false -> full lo 0 ->
      b_end (G lo) = EWhile e (S lo) (S (S lo)) -> fresh (S lo) -> b_noskip (G (S (S lo))) = false ->
      b_state (G (S (S lo))) = hasbrks l -> trb (Some (S (S lo))) l (S (S (S lo))) hi (S lo) 0 il -> full il 0 -> nexts il lo ->
      tr brk (SWhile e l) lo hi b i (S (S lo)) 0
  | tr_break t lo b i : full b i -> nexts b t -> b_state (G t) = true -> fresh lo -> tr (Some t) SBreak lo (S lo) b i lo 0
  | tr_step brk lo b i : full b i -> nexts b lo -> b_state (G lo) = true -> b_noskip (G lo) = true -> tr brk SStep lo (S lo) b i lo 0
  | tr_label brk n lo b i : full b i -> nexts b lo -> b_noskip (G lo) = false -> Lb n lo -> tr brk (SLabel n) lo (S lo) b i lo 0
  | tr_goto brk n lo b i : full b i -> (b_end (G b) = ENext None \/ exists x, nexts b x /\ Lb n x /\ b_state (G x) = true) -> fresh lo ->
      tr brk (SGoto n) lo (S lo) b i lo 0
  | tr_join brk d rb lo b i rest : full b i -> nexts b lo -> b_state (G lo) = true -> b_noskip (G lo) = false -> full lo 0 ->
      b_end (G lo) = EWait d lo (S lo) -> b_state (G (S lo)) = true -> b_noskip (G (S lo)) = false ->
      b_ins (G (S lo)) = map (fun r => IAssign (fst r) (snd r)) rb ++ rest ->
      tr brk (SJoin d rb) lo (S (S lo)) b i (S lo) (length rb)
  with trl : option nat -> list stmt -> nat -> nat -> nat -> nat -> nat -> nat -> Prop :=
  | trl_nil brk lo b i : trl brk [] lo lo b i b i
  | trl_cons brk x r lo m hi b i b1 i1 b2 i2 : tr brk x lo m b i b1 i1 -> trl brk r m hi b1 i1 b2 i2 -> trl brk (x :: r) lo hi b i b2 i2
  with trb : option nat -> list stmt -> nat -> nat -> nat -> nat -> nat -> Prop :=
  | trb_intro brk l lo m b i a j : full b i -> nexts b lo -> fresh lo -> trl brk l (S lo) m lo 0 a j -> full a j -> nexts a m -> fresh m ->
      trb brk l lo (S m) b i m
  with trcs : option nat -> nat -> list (option Z * list stmt) -> list (option Z * nat) -> nat -> nat -> Prop :=
  | trcs_nil brk af lo : trcs brk af [] [] lo lo
  | trcs_cons brk af v l cs bs lo m hi a : fresh lo -> trb brk l (S lo) m lo 0 a -> full a 0 -> nexts a af -> trcs brk af cs bs m hi ->
      trcs brk af ((v, l) :: cs) ((v, lo) :: bs) lo hi.

  Scheme tr_mut := Minimality for tr Sort Prop with trl_mut := Minimality for trl Sort Prop
    with trb_mut := Minimality for trb Sort Prop with trcs_mut := Minimality for trcs Sort Prop.
  Combined Scheme tr_mutind from tr_mut, trl_mut, trb_mut, trcs_mut.

  (** Where the layout ends. *)
  Definition exit_ok (lo hi b b' : nat) : Prop := lo <= hi /\ ((b' = b /\ lo = hi) \/ (lo <= b' < hi)).
  Lemma tr_exit :
    (forall brk st lo hi b i b' i', tr brk st lo hi b i b' i' -> exit_ok lo hi b b') /\
    (forall brk l lo hi b i b' i', trl brk l lo hi b i b' i' -> lo <= hi /\ (b' = b \/ (lo <= b' < hi))) /\
    (forall brk l lo hi b i m, trb brk l lo hi b i m -> S lo < hi /\ hi = S m) /\
    (forall brk af cs bs lo hi, trcs brk af cs bs lo hi -> lo <= hi).
  Proof.
    apply tr_mutind; unfold exit_ok; intros; try lia.
  Qed.
End Layout.

(** * Relation between steps of the gathering *)
Definition blkof (s : gst) : nat -> blk := g_blk s.
Definition islbl (s : gst) (b : nat) : Prop := exists n, In (n, b) (g_lbl s).
(** [x] follows a conditional with a branch containing a cycle boundary. *)
Definition prom (g : graph) (x : nat) : Prop :=
  exists b e ib fi it eb fe et, b_end (g b) = EIf e ib fi it eb fe et x /\ (fi = false \/ fe = false).

Record Fut (E : nat -> Prop) (s s2 : gst) : Prop := {
  f_next : g_next s <= g_next s2;
  f_seal : forall b, b < g_next s -> b_end (g_blk s b) <> ENone -> b_ins (g_blk s2 b) = b_ins (g_blk s b) /\
     (b_end (g_blk s2 b) = b_end (g_blk s b) \/
      (b_end (g_blk s b) = ENext None /\ forall n, In (n, b) (g_fwd s) -> exists x, b_end (g_blk s2 b) = ENext (Some x) /\
         assoc n (g_lbl s2) = Some x /\ b_state (g_blk s2 x) = true));
  f_sealed : forall b, b < g_next s -> b_end (g_blk s b) <> ENone -> b_end (g_blk s2 b) <> ENone;
  f_ins : forall b, b < g_next s -> exists l, b_ins (g_blk s2 b) = b_ins (g_blk s b) ++ l;
  f_noskip : forall b, b < g_next s -> b_noskip (g_blk s2 b) = b_noskip (g_blk s b);
  f_state : forall b, b < g_next s -> b_state (g_blk s b) = true -> b_state (g_blk s2 b) = true;
  f_new : forall b, b < g_next s -> b_state (g_blk s2 b) = true -> b_state (g_blk s b) = true \/ islbl s b \/ prom (g_blk s) b \/ E b;
  f_prom : forall x, x < g_next s -> prom (g_blk s2) x -> prom (g_blk s) x;
  f_lbl : forall n b, In (n, b) (g_lbl s2) -> b < g_next s -> In (n, b) (g_lbl s);
  f_lblb : forall n b, In (n, b) (g_lbl s) -> b < g_next s;
  f_assoc : forall n x, assoc n (g_lbl s) = Some x -> assoc n (g_lbl s2) = Some x;
  f_fwd : incl (g_fwd s) (g_fwd s2)
}.

Lemma fut_refl E s : (forall n b, In (n, b) (g_lbl s) -> b < g_next s) -> Fut E s s.
Proof.
  intros H. constructor; auto; try (intros; eauto; fail).
  - intros b _. exists []. now rewrite app_nil_r.
  - apply incl_refl.
Qed.

Lemma fut_weaken (E E' : nat -> Prop) s s2 : (forall x, x < g_next s -> E x -> E' x) -> Fut E s s2 -> Fut E' s s2.
Proof.
  intros H F. destruct F. constructor; auto.
  intros b L S. destruct (f_new0 b L S) as [?|[?|[?|?]]]; auto.
Qed.

Lemma fut_trans E E' s1 s2 s3 : Fut E s1 s2 -> Fut E' s2 s3 -> Fut (fun x => E x \/ E' x) s1 s3.
Proof.
  intros A B. constructor.
  - pose proof (f_next _ _ _ A). pose proof (f_next _ _ _ B). lia.
  - intros b L N. pose proof (f_next _ _ _ A) as LN.
    destruct (f_seal _ _ _ A b L N) as [I1 J1].
    destruct (f_seal _ _ _ B b ltac:(lia) (f_sealed _ _ _ A b L N)) as [I2 J2]. split; [congruence|].
    destruct J1 as [J1|[J1 K1]].
    + destruct J2 as [J2|[J2 K2]]; [left; congruence|]. right. split; [congruence|].
      intros n Hn. apply K2. now apply (f_fwd _ _ _ A).
    + right. split; [exact J1|]. intros n Hn. destruct (K1 n Hn) as [x [X1 [X2 X3]]]. exists x.
      destruct J2 as [J2|[J2 _]]; [|congruence]. split; [congruence|]. split; [now apply (f_assoc _ _ _ B)|].
      apply (f_state _ _ _ B); [|exact X3]. clear - X2 B.
      apply (f_lblb _ _ _ B n x). revert X2. generalize (g_lbl s2). induction l as [|[k v] l IH]; cbn; [discriminate|].
      destruct (Nat.eqb_spec k n); [intros [= ->]; subst; now left|intros H; right; auto].
  - intros b L N. apply (f_sealed _ _ _ B); [pose proof (f_next _ _ _ A); lia|]. now apply (f_sealed _ _ _ A).
  - intros b L. destruct (f_ins _ _ _ A b L) as [l1 E1]. pose proof (f_next _ _ _ A).
    destruct (f_ins _ _ _ B b ltac:(lia)) as [l2 E2]. exists (l1 ++ l2). rewrite E2, E1. now rewrite app_assoc.
  - intros b L. pose proof (f_next _ _ _ A). rewrite (f_noskip _ _ _ B b ltac:(lia)). now apply (f_noskip _ _ _ A).
  - intros b L S. pose proof (f_next _ _ _ A). apply (f_state _ _ _ B); [lia|]. now apply (f_state _ _ _ A).
  - intros b L S. pose proof (f_next _ _ _ A). destruct (f_new _ _ _ B b ltac:(lia) S) as [H1|[H1|[H1|H1]]].
    + destruct (f_new _ _ _ A b L H1) as [?|[?|[?|?]]]; auto.
    + destruct H1 as [n Hn]. right; left. exists n. now apply (f_lbl _ _ _ A).
    + right; right; left. now apply (f_prom _ _ _ A).
    + auto.
  - intros x L P. pose proof (f_next _ _ _ A). apply (f_prom _ _ _ A); [exact L|]. apply (f_prom _ _ _ B); [lia|exact P].
  - intros n b I L. pose proof (f_next _ _ _ A). apply (f_lbl _ _ _ A); [|exact L]. apply (f_lbl _ _ _ B); [exact I|lia].
  - exact (f_lblb _ _ _ A).
  - intros n x H. apply (f_assoc _ _ _ B). now apply (f_assoc _ _ _ A).
  - eapply incl_tran; [exact (f_fwd _ _ _ A)|exact (f_fwd _ _ _ B)].
Qed.

Lemma fut_trans1 (E : nat -> Prop) s1 s2 s3 : Fut E s1 s2 -> Fut E s2 s3 -> Fut E s1 s3.
Proof. intros A B. apply fut_weaken with (fun x => E x \/ E x); [tauto|]. eapply fut_trans; eassumption. Qed.

(** Facts true of every step of the gathering. *)
Record Inv (s : gst) : Prop := {
  i_lbl : forall n b, In (n, b) (g_lbl s) -> b < g_next s;
  i_prom : forall x, prom (g_blk s) x -> x < g_next s;
  i_fwd : forall n b, In (n, b) (g_fwd s) -> b < g_next s /\ b_end (g_blk s b) = ENext None;
  i_out : forall b, g_next s <= b -> b_end (g_blk s b) = ENone /\ b_ins (g_blk s b) = []
}.

(** Blocks other than [c] are left alone. *)
Definition Keep (c : nat) (s s2 : gst) : Prop := forall b, b < g_next s -> b <> c ->
  b_ins (g_blk s2 b) = b_ins (g_blk s b) /\ b_end (g_blk s2 b) = b_end (g_blk s b) /\ b_noskip (g_blk s2 b) = b_noskip (g_blk s b).

Lemma gset_same g b k : gset g b k b = k.
Proof. unfold gset. now rewrite Nat.eqb_refl. Qed.
Lemma gset_other g b k x : x <> b -> gset g b k x = g x.
Proof. intros H. unfold gset. destruct (Nat.eqb_spec x b); [contradiction|reflexivity]. Qed.

Ltac gs := unfold set_end, set_state, set_noskip, add_ins in *.

(** ** One step after another *)
Lemma prom_gset g b k x : prom (gset g b k) x -> (forall e ib fi it eb fe et a, b_end k = EIf e ib fi it eb fe et a -> b_end (g b) = b_end k) -> prom g x.
Proof.
  intros [y [e [ib [fi [it [eb [fe [et [H F]]]]]]]]] K. unfold gset in H. destruct (Nat.eqb_spec y b).
  - subst y. exists b, e, ib, fi, it, eb, fe, et. split; [|exact F]. rewrite <- H. eapply K. exact H.
  - exists y, e, ib, fi, it, eb, fe, et. auto.
Qed.

Lemma fut_add E s s1 : Inv s1 -> Fut E s s1 -> Fut E s (snd (add_block s1)).
Proof.
  intros I F. destruct F. constructor; cbn; auto.
  - intros b L N. rewrite gset_other by lia. destruct (f_seal0 b L N) as [I1 J1]. split; [exact I1|].
    destruct J1 as [J1|[J1 K]]; [left; exact J1|right; split; [exact J1|]]. intros n Hn. destruct (K n Hn) as [x [X1 [X2 X3]]].
    exists x. split; [exact X1|split; [exact X2|]]. rewrite gset_other; [exact X3|].
    assert (x < g_next s1); [|lia]. apply (i_lbl s1 I n).
    revert X2. generalize (g_lbl s1). induction l as [|[k v] l IH]; cbn; [discriminate|].
    destruct (Nat.eqb_spec k n); [intros [= ->]; subst; now left|intros H; right; auto].
  - intros b L N. rewrite gset_other by lia. auto.
  - intros b L. rewrite gset_other by lia. auto.
  - intros b L. rewrite gset_other by lia. auto.
  - intros b L S. rewrite gset_other by lia. auto.
  - intros b L S. rewrite gset_other in S by lia. auto.
  - intros x L P. apply f_prom0; [exact L|]. eapply prom_gset; [exact P|]. cbn. intros; discriminate.
Qed.

Lemma inv_add s : Inv s -> Inv (snd (add_block s)).
Proof.
  intros I. constructor; cbn.
  - intros n b H. pose proof (i_lbl s I n b H). lia.
  - intros x P. apply prom_gset in P; [|cbn; intros; discriminate]. pose proof (i_prom s I x P). lia.
  - intros n b H. destruct (i_fwd s I n b H). split; [lia|]. now rewrite gset_other by lia.
  - intros b L. rewrite gset_other by lia. apply (i_out s I). lia.
Qed.

Lemma keep_add c s s1 : Keep c s s1 -> g_next s <= g_next s1 -> Keep c s (snd (add_block s1)).
Proof. intros K L b Lb N. cbn. rewrite gset_other by lia. now apply K. Qed.

(** Setting the end action. *)
Lemma fut_end E s s1 b e : Fut E s s1 -> b_end (g_blk s1 b) = ENone -> e <> ENone ->
  (forall t ib fi it eb fe et a, e = EIf t ib fi it eb fe et a -> fi = false \/ fe = false -> g_next s <= a) ->
  Fut E s (st_end s1 b e).
Proof.
  intros F O NE HP. destruct F. constructor; cbn; auto; gs.
  - intros x L N. assert (x <> b). { intros ->. apply (f_sealed0 b L N). exact O. }
    rewrite gset_other by assumption. destruct (f_seal0 x L N) as [I1 J1]. split; [exact I1|].
    destruct J1 as [J1|[J1 K]]; [left; exact J1|right; split; [exact J1|]]. intros n Hn. destruct (K n Hn) as [y [X1 [X2 X3]]].
    exists y. split; [exact X1|split; [exact X2|]]. destruct (Nat.eq_dec y b); [subst; rewrite gset_same; exact X3|now rewrite gset_other].
  - intros x L N. assert (x <> b). { intros ->. apply (f_sealed0 b L N). exact O. } rewrite gset_other by assumption. auto.
  - intros x L. destruct (Nat.eq_dec x b); [subst; rewrite gset_same; cbn; auto|rewrite gset_other by assumption; auto].
  - intros x L. destruct (Nat.eq_dec x b); [subst; rewrite gset_same; cbn; auto|rewrite gset_other by assumption; auto].
  - intros x L S. destruct (Nat.eq_dec x b); [subst; rewrite gset_same; cbn; auto|rewrite gset_other by assumption; auto].
  - intros x L S. destruct (Nat.eq_dec x b); [subst; rewrite gset_same in S; cbn in S; auto|rewrite gset_other in S by assumption; auto].
  - intros x L [y [t [ib [fi [it [eb [fe [et [H Fl]]]]]]]]]. destruct (Nat.eq_dec y b).
    + subst. rewrite gset_same in H. cbn in H. specialize (HP _ _ _ _ _ _ _ _ H Fl). lia.
    + rewrite gset_other in H by assumption. apply f_prom0; [exact L|]. exists y, t, ib, fi, it, eb, fe, et. auto.
Qed.

Lemma inv_end s b e : Inv s -> b < g_next s -> b_end (g_blk s b) = ENone ->
  (forall t ib fi it eb fe et a, e = EIf t ib fi it eb fe et a -> a < g_next s) -> Inv (st_end s b e).
Proof.
  intros I L O HP. constructor; cbn; gs.
  - exact (i_lbl s I).
  - intros x [y [t [ib [fi [it [eb [fe [et [H Fl]]]]]]]]]. destruct (Nat.eq_dec y b).
    + subst. rewrite gset_same in H. cbn in H. exact (HP _ _ _ _ _ _ _ _ H).
    + rewrite gset_other in H by assumption. apply (i_prom s I). exists y, t, ib, fi, it, eb, fe, et. auto.
  - intros n x H. destruct (i_fwd s I n x H) as [L' E]. split; [exact L'|].
    rewrite gset_other; [exact E|]. intros ->. congruence.
  - intros x Lx. rewrite gset_other by lia. apply (i_out s I x Lx).
Qed.

(** Marking states. *)
Lemma fut_state E s s1 b v : Fut E s s1 -> (b_state (g_blk s1 b) = false \/ v = true) -> (v = true -> g_next s <= b \/ E b \/ islbl s b) ->
  Fut E s (st_state s1 b v).
Proof.
  intros F O HE. destruct F. constructor; cbn; auto; gs.
  - intros x L N. destruct (f_seal0 x L N) as [I1 J1].
    assert (Q : forall y, b_state (g_blk s1 y) = true -> b_state (gset (g_blk s1) b {| b_ins := b_ins (g_blk s1 b); b_end := b_end (g_blk s1 b); b_state := v; b_noskip := b_noskip (g_blk s1 b) |} y) = true).
    { intros y Hy. destruct (Nat.eq_dec y b); [subst; rewrite gset_same; cbn; destruct O; congruence|now rewrite gset_other]. }
    assert (Q1 : forall y, b_end (gset (g_blk s1) b {| b_ins := b_ins (g_blk s1 b); b_end := b_end (g_blk s1 b); b_state := v; b_noskip := b_noskip (g_blk s1 b) |} y) = b_end (g_blk s1 y)).
    { intros y. destruct (Nat.eq_dec y b); [subst; now rewrite gset_same|now rewrite gset_other]. }
    assert (Q2 : forall y, b_ins (gset (g_blk s1) b {| b_ins := b_ins (g_blk s1 b); b_end := b_end (g_blk s1 b); b_state := v; b_noskip := b_noskip (g_blk s1 b) |} y) = b_ins (g_blk s1 y)).
    { intros y. destruct (Nat.eq_dec y b); [subst; now rewrite gset_same|now rewrite gset_other]. }
    rewrite Q1, Q2. split; [exact I1|]. destruct J1 as [J1|[J1 K]]; [left; exact J1|right; split; [exact J1|]].
    intros n Hn. destruct (K n Hn) as [y [X1 [X2 X3]]]. exists y. auto.
  - intros x L N. destruct (Nat.eq_dec x b); [subst; rewrite gset_same; cbn; auto|rewrite gset_other by assumption; auto].
  - intros x L. destruct (Nat.eq_dec x b); [subst; rewrite gset_same; cbn; auto|rewrite gset_other by assumption; auto].
  - intros x L. destruct (Nat.eq_dec x b); [subst; rewrite gset_same; cbn; auto|rewrite gset_other by assumption; auto].
  - intros x L S. destruct (Nat.eq_dec x b); [subst; rewrite gset_same; cbn|rewrite gset_other by assumption; auto].
    destruct O as [O| ->]; [|reflexivity]. rewrite (f_state0 b L S) in O. discriminate.
  - intros x L S. destruct (Nat.eq_dec x b); [subst; rewrite gset_same in S; cbn in S|rewrite gset_other in S by assumption; auto].
    destruct (HE S) as [?|[?|?]]; [lia|auto|auto].
  - intros x L P. apply f_prom0; [exact L|]. eapply prom_gset; [exact P|]. cbn. intros; reflexivity.
Qed.

Lemma inv_state s b v : Inv s -> Inv (st_state s b v).
Proof.
  intros I. constructor; cbn; gs.
  - exact (i_lbl s I).
  - intros x P. apply (i_prom s I). eapply prom_gset; [exact P|]. cbn. reflexivity.
  - intros n x H. destruct (i_fwd s I n x H) as [L E]. split; [exact L|].
    destruct (Nat.eq_dec x b); [subst; now rewrite gset_same|now rewrite gset_other].
  - intros x Lx. destruct (i_out s I x Lx). destruct (Nat.eq_dec x b); [subst; now rewrite gset_same|now rewrite gset_other].
Qed.

(** Instructions added at the end of an open block. *)
Lemma fut_ins E s s1 b l : Fut E s s1 -> b_end (g_blk s1 b) = ENone -> Fut E s (upd_blk s1 (add_ins (g_blk s1) b l)).
Proof.
  intros F O. destruct F. constructor; cbn; auto; gs.
  - intros x L N. assert (x <> b). { intros ->. apply (f_sealed0 b L N). exact O. }
    rewrite gset_other by assumption. destruct (f_seal0 x L N) as [I1 J1]. split; [exact I1|].
    destruct J1 as [J1|[J1 K]]; [left; exact J1|right; split; [exact J1|]]. intros n Hn. destruct (K n Hn) as [y [X1 [X2 X3]]].
    exists y. split; [exact X1|split; [exact X2|]]. destruct (Nat.eq_dec y b); [subst; rewrite gset_same; exact X3|now rewrite gset_other].
  - intros x L N. assert (x <> b). { intros ->. apply (f_sealed0 b L N). exact O. } rewrite gset_other by assumption. auto.
  - intros x L. destruct (Nat.eq_dec x b); [subst; rewrite gset_same; cbn; auto|rewrite gset_other by assumption; auto].
    destruct (f_ins0 b L) as [l1 ->]. exists (l1 ++ l). now rewrite app_assoc.
  - intros x L. destruct (Nat.eq_dec x b); [subst; rewrite gset_same; cbn; auto|rewrite gset_other by assumption; auto].
  - intros x L S. destruct (Nat.eq_dec x b); [subst; rewrite gset_same; cbn; auto|rewrite gset_other by assumption; auto].
  - intros x L S. destruct (Nat.eq_dec x b); [subst; rewrite gset_same in S; cbn in S; auto|rewrite gset_other in S by assumption; auto].
  - intros x L P. apply f_prom0; [exact L|]. eapply prom_gset; [exact P|]. cbn. intros; reflexivity.
Qed.

Lemma inv_ins s b l : Inv s -> b < g_next s -> Inv (upd_blk s (add_ins (g_blk s) b l)).
Proof.
  intros I L. constructor; cbn; gs.
  - exact (i_lbl s I).
  - intros x P. apply (i_prom s I). eapply prom_gset; [exact P|]. cbn. reflexivity.
  - intros n x H. destruct (i_fwd s I n x H) as [L' E]. split; [exact L'|].
    destruct (Nat.eq_dec x b); [subst; now rewrite gset_same|now rewrite gset_other].
  - intros x Lx. rewrite gset_other by lia. apply (i_out s I x Lx).
Qed.

(** No skip on a new block. *)
Lemma fut_noskip E s s1 b : Fut E s s1 -> g_next s <= b -> Fut E s (upd_blk s1 (set_noskip (g_blk s1) b)).
Proof.
  intros F O. destruct F. constructor; cbn; auto; gs.
  - intros x L N. rewrite gset_other by lia. destruct (f_seal0 x L N) as [I1 J1]. split; [exact I1|].
    destruct J1 as [J1|[J1 K]]; [left; exact J1|right; split; [exact J1|]]. intros n Hn. destruct (K n Hn) as [y [X1 [X2 X3]]].
    exists y. split; [exact X1|split; [exact X2|]]. destruct (Nat.eq_dec y b); [subst; rewrite gset_same; exact X3|now rewrite gset_other].
  - intros x L N. rewrite gset_other by lia. auto.
  - intros x L. rewrite gset_other by lia. auto.
  - intros x L. rewrite gset_other by lia. auto.
  - intros x L S. rewrite gset_other by lia. auto.
  - intros x L S. rewrite gset_other in S by lia. auto.
  - intros x L P. apply f_prom0; [exact L|]. eapply prom_gset; [exact P|]. cbn. intros; reflexivity.
Qed.

Lemma inv_noskip s b : Inv s -> Inv (upd_blk s (set_noskip (g_blk s) b)).
Proof.
  intros I. constructor; cbn; gs.
  - exact (i_lbl s I).
  - intros x P. apply (i_prom s I). eapply prom_gset; [exact P|]. cbn. reflexivity.
  - intros n x H. destruct (i_fwd s I n x H) as [L E]. split; [exact L|].
    destruct (Nat.eq_dec x b); [subst; now rewrite gset_same|now rewrite gset_other].
  - intros x Lx. destruct (i_out s I x Lx). destruct (Nat.eq_dec x b); [subst; now rewrite gset_same|now rewrite gset_other].
Qed.

Lemma fut_last E s s1 b : Fut E s s1 -> Fut E s (st_last s1 b).
Proof. intros F. destruct F. constructor; auto. Qed.
Lemma inv_last s b : Inv s -> Inv (st_last s b).
Proof. intros I. destruct I. constructor; auto. Qed.

(** A new block keeps its properties. *)
Lemma fut_fresh E s0 sF : Inv s0 -> Fut E (snd (add_block s0)) sF -> ~ E (g_next s0) -> fresh (g_blk sF) (g_next s0).
Proof.
  intros I F NE. split.
  - destruct (b_state (g_blk sF (g_next s0))) eqn:S; [|reflexivity].
    destruct (f_new _ _ _ F (g_next s0) ltac:(cbn; lia) S) as [H|[[n H]|[H|H]]].
    + cbn in H. rewrite gset_same in H. discriminate.
    + cbn in H. pose proof (i_lbl s0 I n _ H). lia.
    + cbn in H. apply prom_gset in H; [|cbn; intros; discriminate]. pose proof (i_prom s0 I _ H). lia.
    + contradiction.
  - rewrite (f_noskip _ _ _ F); [|cbn; lia]. cbn. now rewrite gset_same.
Qed.

Lemma fut_end_eq E s sF b : Fut E s sF -> b < g_next s -> b_end (g_blk s b) <> ENone -> b_end (g_blk s b) <> ENext None ->
  b_end (g_blk sF b) = b_end (g_blk s b) /\ b_ins (g_blk sF b) = b_ins (g_blk s b).
Proof.
  intros F L N1 N2. destruct (f_seal _ _ _ F b L N1) as [I [J|[J _]]]; [split; assumption|contradiction].
Qed.

(** * Exploration without states *)
Section Stateless.
  Variable g : graph.
  Definition bad (b : nat) : Prop := b_state (g b) = true \/ is_call (b_end (g b)) = true \/ somes (children (b_end (g b))) = None.
  Inductive reachc : nat -> nat -> Prop :=
  | rc_refl a : reachc a a
  | rc_step a b c : In (Some b) (children (b_end (g a))) -> reachc b c -> reachc a c.

  Lemma reachc_trans a b c : reachc a b -> reachc b c -> reachc a c.
  Proof. induction 1; [auto|]. intros. eapply rc_step; eauto. Qed.

  Lemma somes_in l r c : somes l = Some r -> In (Some c) l <-> In c r.
  Proof.
    revert r. induction l as [|[x|] l IH]; cbn; intros r; [|destruct (somes l) as [r'|]; [|discriminate]|discriminate].
    - intros [= <-]. split; intros [].
    - intros [= <-]. cbn. split.
      + intros [[= ->]|H]; [now left|right; now apply (IH r' eq_refl)].
      + intros [ ->|H]; [now left|right; now apply (IH r' eq_refl)].
  Qed.

  Lemma stateless_false f : forall vis q, stateless f g vis q = Some false -> exists a b, In a q /\ reachc a b /\ bad b.
  Proof.
    induction f as [|f IH]; intros vis q H; destruct q as [|cur q]; cbn [stateless] in H; try discriminate.
    destruct (b_state (g cur)) eqn:S; [exists cur, cur; split; [now left|split; [apply rc_refl|now left]]|].
    destruct (is_call (b_end (g cur))) eqn:C; [exists cur, cur; split; [now left|split; [apply rc_refl|right; now left]]|].
    destruct (somes (children (b_end (g cur)))) as [cs|] eqn:E; [|exists cur, cur; split; [now left|split; [apply rc_refl|right; now right]]].
    destruct (IH _ _ H) as [a [b [I [R B]]]]. apply in_app_iff in I. destruct I as [I|I].
    - exists a, b. split; [now right|auto].
    - exists cur, b. split; [now left|split; [|exact B]]. apply filter_In in I. destruct I as [I _].
      eapply rc_step; [apply (somes_in _ _ a E); exact I|exact R].
  Qed.

  Lemma stateless_true f : forall vis q, stateless f g vis q = Some true ->
    (forall a c, In a vis -> In (Some c) (children (b_end (g a))) -> In c vis \/ In c q) -> (forall a, In a vis -> ~ bad a) ->
    forall a b, In a vis \/ In a q -> reachc a b -> ~ bad b.
  Proof.
    induction f as [|f IH]; intros vis q H C NB a b I R; destruct q as [|cur q]; cbn [stateless] in H; try discriminate.
    - destruct I as [I|[]]. induction R as [a|a c d Ic R IHR]; [now apply NB|]. apply IHR. destruct (C a c I Ic) as [?|[]]; assumption.
    - destruct I as [I|[]]. induction R as [a|a c d Ic R IHR]; [now apply NB|]. apply IHR. destruct (C a c I Ic) as [?|[]]; assumption.
    - destruct (b_state (g cur)) eqn:S; [discriminate|].
      destruct (is_call (b_end (g cur))) eqn:K; [discriminate|].
      destruct (somes (children (b_end (g cur)))) as [cs|] eqn:E; [|discriminate].
      eapply IH; [exact H| | | |exact R].
      + intros x c [ <-|Ix] Ic.
        * apply (somes_in _ _ c E) in Ic. destruct (memb c (cur :: vis)) eqn:M.
          -- left. now apply memb_In.
          -- right. apply in_app_iff. right. apply filter_In. split; [exact Ic|now rewrite M].
        * destruct (C x c Ix Ic) as [ |[ ->|]]; [left; now right|left; now left|right; apply in_app_iff; now left].
      + intros x [ <-|Ix]; [|now apply NB]. intros [B|[B|B]]; congruence.
      + destruct I as [I|[ ->|I]]; [left; now right|left; now left|right; apply in_app_iff; now left].
  Qed.

  Lemma stateless_spec f b fl : stateless f g [] [b] = Some fl -> (fl = true <-> forall c, reachc b c -> ~ bad c).
  Proof.
    intros H. destruct fl; split; intros K; try discriminate; try reflexivity.
    - intros c R. eapply (stateless_true f [] [b] H); [intros a x []|intros a []|right; now left|exact R].
    - destruct (stateless_false f [] [b] H) as [a [c [[ <-|[]] [R B]]]]. exfalso. now apply (K c R).
  Qed.
End Stateless.

(** The flag computed on the branch of a conditional. *)
Section Flags.
  Variable G : graph.
  Variable Lb : nat -> nat -> Prop.


  (** Region closed by children, without states. *)
  Definition inr (lo hi b x : nat) : Prop := x = b \/ lo <= x < hi.
  Definition quiet (lo hi b b' : nat) : Prop :=
    (forall x, lo <= x < hi -> b_state (G x) = false) /\
    (forall x, inr lo hi b x -> x <> b' -> is_call (b_end (G x)) = false /\ somes (children (b_end (G x))) <> None /\
       forall c, In (Some c) (children (b_end (G x))) -> lo <= c < hi).
  Definition lquiet (lo hi : nat) : Prop := forall n x, Lb n x -> lo <= x < hi -> b_state (G x) = false.

  Lemma somes_map_some {A} (f : A -> nat) l : somes (map (fun c => Some (f c)) l) = Some (map f l).
  Proof. induction l as [|a l IH]; cbn; [reflexivity|]. now rewrite IH. Qed.
  Lemma somes_app_some l1 l2 r1 r2 : somes l1 = Some r1 -> somes l2 = Some r2 -> somes (l1 ++ l2) = Some (r1 ++ r2).
  Proof.
    revert r1. induction l1 as [|[x|] l1 IH]; cbn; intros r1; [intros [= <-] H; exact H| |discriminate].
    destruct (somes l1) as [r'|]; [|discriminate]. intros [= <-] H. now rewrite (IH r' eq_refl H).
  Qed.

  Lemma quiet_region :
    (forall brk st lo hi b i b' i', tr G Lb brk st lo hi b i b' i' -> timeless st = true -> b < lo -> lquiet lo hi -> quiet lo hi b b') /\
    (forall brk l lo hi b i b' i', trl G Lb brk l lo hi b i b' i' -> timelesss l = true -> b < lo -> lquiet lo hi -> quiet lo hi b b') /\
    (forall brk l lo hi b i m, trb G Lb brk l lo hi b i m -> timelesss l = true -> b < lo -> lquiet lo hi -> quiet lo hi b m) /\
    (forall brk af cs bs lo hi, trcs G Lb brk af cs bs lo hi -> forallb (fun c => timelesss (snd c)) cs = true -> lquiet lo hi ->
       (forall x, lo <= x < hi -> b_state (G x) = false) /\
       (forall x, In x (map snd bs) -> lo <= x < hi) /\
       (forall x, lo <= x < hi -> is_call (b_end (G x)) = false /\ somes (children (b_end (G x))) <> None /\
          forall c, In (Some c) (children (b_end (G x))) -> lo <= c < hi \/ c = af)).
  Proof.
    destruct (tr_exit G Lb) as [TE [TLE [TBE TCE]]].
    apply tr_mutind; unfold nexts, full, fresh; cbn [timeless]; intros; try discriminate.
    - split; [intros; lia|]. intros y [ ->|?] ?; [congruence|lia].
    - split; [intros; lia|]. intros y [ ->|?] ?; [congruence|lia].
    - auto.
    - (* SIf *)
      destruct H4 as [Q1 Q2]; [assumption|lia|intros n x Hn Hx; eapply H13; [exact Hn|lia]|].
      pose proof (TBE _ _ _ _ _ _ _ H3) as [TB1 TB2].
      assert (Sm : b_state (G m) = false). { destruct (b_state (G m)) eqn:S; [specialize (H10 eq_refl); unfold timelesss in *; congruence|reflexivity]. }
      assert (D : forall x, S (S lo) <= x < m \/ x = lo \/ x = S lo \/ x = m \/ ~ (lo <= x < S m)) by (intros; lia).
      split.
      + intros x Hx. destruct (D x) as [?|[ ->|[ ->|[ ->|?]]]]; [now apply Q1|tauto|tauto|exact Sm|lia].
      + intros x Hx N. destruct Hx as [ ->|Hx].
        * rewrite H0. cbn. split; [reflexivity|split; [discriminate|]]. intros c [[= <-]|[[= <-]|[[= <-]|[]]]]; lia.
        * destruct (D x) as [Hx2|[ ->|[ ->|[ ->|?]]]]; [| | |congruence|lia].
          -- destruct (Nat.eq_dec x ia) as [ ->|Ni].
             ++ rewrite H6. cbn. split; [reflexivity|split; [discriminate|]]. intros c [[= <-]|[]]. lia.
             ++ destruct (Q2 x (or_intror Hx2) Ni) as [X1 [X2 X3]]. split; [exact X1|split; [exact X2|]]. intros c Hc. specialize (X3 c Hc). lia.
          -- destruct (Q2 lo (or_introl eq_refl) ltac:(lia)) as [X1 [X2 X3]]. split; [exact X1|split; [exact X2|]]. intros c Hc. specialize (X3 c Hc). lia.
          -- rewrite H8. cbn. split; [reflexivity|split; [discriminate|]]. intros c [[= <-]|[]]. lia.
    - (* SIfElse *)
      apply andb_true_iff in H13. destruct H13 as [T1 T2].
      pose proof (TBE _ _ _ _ _ _ _ H3) as [TB1 TB2].
      pose proof (TBE _ _ _ _ _ _ _ H7) as [TB3 TB4].
      destruct H4 as [Q1 Q2]; [assumption|lia|intros n x Hn Hx; eapply H15; [exact Hn|lia]|].
      destruct H8 as [Q3 Q4]; [assumption|lia|intros n x Hn Hx; eapply H15; [exact Hn|lia]|].
      assert (Sm : b_state (G m) = false).
      { destruct (b_state (G m)) eqn:S; [destruct (H12 eq_refl); unfold timelesss in *; congruence|reflexivity]. }
      assert (D : forall x, S (S lo) <= x < m1 \/ m1 <= x < m \/ x = lo \/ x = S lo \/ x = m \/ ~ (lo <= x < S m)) by (intros; lia).
      split.
      + intros x Hx. destruct (D x) as [?|[?|[ ->|[ ->|[ ->|?]]]]]; [now apply Q1|now apply Q3|tauto|tauto|exact Sm|lia].
      + intros x Hx N. destruct Hx as [ ->|Hx].
        * rewrite H0. cbn. split; [reflexivity|split; [discriminate|]]. intros c [[= <-]|[[= <-]|[[= <-]|[]]]]; lia.
        * destruct (D x) as [Hx2|[Hx2|[ ->|[ ->|[ ->|?]]]]]; [| | | |congruence|lia].
          -- destruct (Nat.eq_dec x ia) as [ ->|Ni].
             ++ rewrite H6. cbn. split; [reflexivity|split; [discriminate|]]. intros c [[= <-]|[]]. lia.
             ++ destruct (Q2 x (or_intror Hx2) Ni) as [X1 [X2 X3]]. split; [exact X1|split; [exact X2|]]. intros c Hc. specialize (X3 c Hc). lia.
          -- destruct (Nat.eq_dec x ea) as [ ->|Ni].
             ++ rewrite H10. cbn. split; [reflexivity|split; [discriminate|]]. intros c [[= <-]|[]]. lia.
             ++ destruct (Q4 x (or_intror Hx2) Ni) as [X1 [X2 X3]]. split; [exact X1|split; [exact X2|]]. intros c Hc. specialize (X3 c Hc). lia.
          -- destruct (Q2 lo (or_introl eq_refl) ltac:(lia)) as [X1 [X2 X3]]. split; [exact X1|split; [exact X2|]]. intros c Hc. specialize (X3 c Hc). lia.
          -- destruct (Q4 (S lo) (or_introl eq_refl) ltac:(lia)) as [X1 [X2 X3]]. split; [exact X1|split; [exact X2|]]. intros c Hc. specialize (X3 c Hc). lia.
    - (* SSwitch *)
      pose proof (TCE _ _ _ _ _ _ H1) as TC1.
      destruct H2 as [Q1 [Q2 Q3]]; [exact H5|intros n x Hn Hx; eapply H7; [exact Hn|lia]|].
      assert (Sm : b_state (G lo) = false) by (rewrite H4, H5; reflexivity).
      split.
      + intros x Hx. destruct (Nat.eq_dec x lo) as [ ->|]; [exact Sm|apply Q1; lia].
      + intros x Hx N. destruct Hx as [ ->|Hx].
        * rewrite H0. cbn. split; [reflexivity|]. rewrite (somes_app_some _ [Some lo] _ [lo] (somes_map_some snd bs) eq_refl).
          split; [discriminate|]. intros c Hc. apply in_app_iff in Hc. destruct Hc as [Hc|[[= <-]|[]]]; [|lia].
          apply in_map_iff in Hc. destruct Hc as [z [[= <-] Iz]]. specialize (Q2 (snd z) (in_map snd _ _ Iz)). lia.
        * destruct (Q3 x ltac:(lia)) as [X1 [X2 X3]]. split; [exact X1|split; [exact X2|]]. intros c Hc. destruct (X3 c Hc); lia.
    - (* SLabel *)
      split.
      + intros x Hx. assert (x = lo) as -> by lia. eapply H5; [eassumption|lia].
      + intros x [ ->|Hx] N; [|lia]. rewrite H0. cbn. split; [reflexivity|split; [discriminate|]]. intros c [[= <-]|[]]. lia.
    - (* nil *)
      split; [intros; lia|]. intros y [ ->|?] ?; [congruence|lia].
    - (* cons *)
      apply andb_true_iff in H3. destruct H3 as [T1 T2].
      pose proof (TE _ _ _ _ _ _ _ _ H) as [E1 E2]. pose proof (TLE _ _ _ _ _ _ _ _ H1) as [E3 E4].
      destruct H0 as [Q1 Q2]; [exact T1|assumption|intros n x0 Hn Hx; eapply H5; [exact Hn|lia]|].
      destruct H2 as [Q3 Q4]; [exact T2|destruct E2; lia|intros n x0 Hn Hx; eapply H5; [exact Hn|lia]|].
      split.
      + intros y Hy. destruct (le_lt_dec m y); [apply Q3; lia|apply Q1; lia].
      + intros y Hy N. destruct (Nat.eq_dec y b1) as [ ->|N1].
        * destruct (Q4 b1 (or_introl eq_refl) N) as [X1 [X2 X3]]. split; [exact X1|split; [exact X2|]]. intros c Hc. specialize (X3 c Hc). lia.
        * destruct (le_lt_dec m y).
          -- destruct Hy as [ ->|Hy]; [exfalso; lia|]. assert (HH : inr m hi b1 y) by (right; lia). destruct (Q4 y HH N) as [X1 [X2 X3]].
             split; [exact X1|split; [exact X2|]]. intros c Hc. specialize (X3 c Hc). lia.
          -- destruct (Q2 y) as [X1 [X2 X3]]; [destruct Hy; [now left|right; lia]|exact N1|].
             split; [exact X1|split; [exact X2|]]. intros c Hc. specialize (X3 c Hc). lia.
    - (* block *)
      pose proof (TLE _ _ _ _ _ _ _ _ H2) as [E3 E4].
      destruct H3 as [Q1 Q2]; [assumption|lia|intros n x0 Hn Hx; eapply H9; [exact Hn|lia]|].
      split.
      + intros x Hx. assert (x = lo \/ x = m \/ S lo <= x < m) as [ ->|[ ->|?]] by lia; [tauto|tauto|now apply Q1].
      + intros x Hx N. destruct Hx as [ ->|Hx].
        * rewrite H0. cbn. split; [reflexivity|split; [discriminate|]]. intros c [[= <-]|[]]. lia.
        * destruct (Nat.eq_dec x a) as [ ->|Na].
          -- rewrite H5. cbn. split; [reflexivity|split; [discriminate|]]. intros c [[= <-]|[]]. lia.
          -- destruct (Q2 x) as [X1 [X2 X3]]; [unfold inr; lia|exact Na|].
             split; [exact X1|split; [exact X2|]]. intros c Hc. specialize (X3 c Hc). lia.
    - (* cases nil *)
      split; [intros; lia|]. split; [intros x []|intros; lia].
    - (* cases cons *)
      apply andb_true_iff in H6. destruct H6 as [T1 T2].
      pose proof (TBE _ _ _ _ _ _ _ H0) as [TB1 TB2]. pose proof (TCE _ _ _ _ _ _ H4) as TC1.
      destruct H1 as [Q1 Q2]; [exact T1|lia|intros n x Hn Hx; eapply H7; [exact Hn|lia]|].
      destruct H5 as [Q3 [Q4 Q5]]; [exact T2|intros n x Hn Hx; eapply H7; [exact Hn|lia]|].
      split; [|split].
      + intros x Hx. assert (x = lo \/ S lo <= x < m \/ m <= x < hi) as [ ->|[?|?]] by lia; [tauto|now apply Q1|now apply Q3].
      + intros x [ <-|Hx]; [cbn; lia|]. specialize (Q4 x Hx). lia.
      + intros x Hx. destruct (le_lt_dec m x).
        * destruct (Q5 x ltac:(lia)) as [X1 [X2 X3]]. split; [exact X1|split; [exact X2|]]. intros c Hc. destruct (X3 c Hc); [left; lia|now right].
        * destruct (Nat.eq_dec x a) as [ ->|Na].
          -- rewrite H3. cbn. split; [reflexivity|split; [discriminate|]]. intros c [[= <-]|[]]. now right.
          -- destruct (Q2 x) as [X1 [X2 X3]]; [unfold inr; lia|exact Na|].
             split; [exact X1|split; [exact X2|]]. intros c Hc. specialize (X3 c Hc). left; lia.
  Qed.

  Lemma flag_reach :
    (forall brk st lo hi b i b' i', tr G Lb brk st lo hi b i b' i' ->
       if timeless st then reachc G b b' else exists c, reachc G b c /\ bad G c) /\
    (forall brk l lo hi b i b' i', trl G Lb brk l lo hi b i b' i' -> if timelesss l then reachc G b b' else exists c, reachc G b c /\ bad G c) /\
    (forall brk l lo hi b i m, trb G Lb brk l lo hi b i m -> if timelesss l then reachc G b m else exists c, reachc G b c /\ bad G c) /\
    (forall brk af cs bs lo hi, trcs G Lb brk af cs bs lo hi -> forallb (fun c => timelesss (snd c)) cs = false ->
       exists x c, In x (map snd bs) /\ reachc G x c /\ bad G c).
  Proof.
    assert (RN : forall b x, b_end (G b) = ENext (Some x) -> reachc G b x).
    { intros b x H. eapply rc_step; [rewrite H; now left|apply rc_refl]. }
    apply tr_mutind; unfold nexts, full, fresh; cbn [timeless]; intros.
    - apply rc_refl.
    - apply rc_refl.
    - exact H0.
    - fold (timelesss l). destruct (timelesss l).
      + eapply rc_step; [rewrite H0; right; right; now left|apply rc_refl].
      + destruct H4 as [c [R B]]. exists c. split; [|exact B]. eapply rc_step; [rewrite H0; now left|exact R].
    - fold (timelesss l1). fold (timelesss l2). destruct (timelesss l1); [|].
      + destruct (timelesss l2); cbn [andb].
        * eapply rc_step; [rewrite H0; right; right; now left|apply rc_refl].
        * destruct H8 as [c [R B]]. exists c. split; [|exact B]. eapply rc_step; [rewrite H0; right; now left|exact R].
      + cbn [andb]. destruct H4 as [c [R B]]. exists c. split; [|exact B]. eapply rc_step; [rewrite H0; now left|exact R].
    - destruct (forallb (fun c => forallb timeless (snd c)) cs) eqn:F.
      + eapply rc_step; [rewrite H0; cbn; apply in_app_iff; right; now left|apply rc_refl].
      + destruct (H2 F) as [x [c [I [R B]]]]. exists c. split; [|exact B]. eapply rc_step; [|exact R].
        rewrite H0. cbn. apply in_app_iff. left. apply in_map_iff in I. destruct I as [z [ <- Iz]]. apply in_map_iff. exists z. auto.
    - exists lo. split; [now apply RN|now left].
    - exists t. split; [now apply RN|now left].
    - exists lo. split; [now apply RN|now left].
    - now apply RN.
    - destruct H0 as [H0|[x [H0 [_ S]]]].
      + exists b. split; [apply rc_refl|]. right; right. now rewrite H0.
      + exists x. split; [now apply RN|now left].
    - exists lo. split; [now apply RN|now left].
    - apply rc_refl.
    - cbn [timelesss forallb]. fold (timelesss r). destruct (timeless x); cbn [andb].
      + destruct (timelesss r).
        * eapply reachc_trans; eassumption.
        * destruct H2 as [c [R B]]. exists c. split; [eapply reachc_trans; eassumption|exact B].
      + exact H0.
    - destruct (timelesss l).
      + eapply reachc_trans; [apply RN; eassumption|]. eapply reachc_trans; [eassumption|]. now apply RN.
      + destruct H3 as [c [R B]]. exists c. split; [eapply reachc_trans; [apply RN; eassumption|exact R]|exact B].
    - discriminate.
    - cbn in H6. apply andb_false_iff in H6. destruct H6 as [F|F].
      + change (timelesss l = false) in F. rewrite F in H1. destruct H1 as [c [R B]]. exists lo, c. split; [now left|auto].
      + destruct (H5 F) as [x [c [I [R B]]]]. exists x, c. split; [now right|auto].
  Qed.

  (** The flag of a branch. *)
  Lemma branch_flag f fl brk l lo hi b m af : trb G Lb brk l lo hi b 0 m -> b < lo -> (timelesss l = true -> lquiet lo hi) -> b_state (G b) = false ->
    nexts G m af -> b_state (G af) = false -> b_end (G af) = ENone ->
    stateless f G [] [b] = Some fl -> fl = timelesss l.
  Proof.
    intros T Lt LQ S N Sa Ea H. apply stateless_spec in H.
    destruct flag_reach as [_ [_ [FR _]]]. specialize (FR _ _ _ _ _ _ _ T).
    destruct (timelesss l) eqn:TL.
    - apply H. destruct quiet_region as [_ [_ [QR _]]]. destruct (QR _ _ _ _ _ _ _ T TL Lt (LQ eq_refl)) as [Q1 Q2].
      assert (NB : forall x, inr lo hi b x \/ x = af -> ~ bad G x /\ forall c, In (Some c) (children (b_end (G x))) -> inr lo hi b c \/ c = af).
      { intros x [Hx| ->].
        - destruct (Nat.eq_dec x m) as [ ->|Nm].
          + split; [|rewrite N; intros c [[= <-]|[]]; now right].
            intros [B|[B|B]]; [|rewrite N in B; discriminate|rewrite N in B; discriminate].
            destruct Hx as [ ->|Hx]; [congruence|]. rewrite (Q1 m Hx) in B. discriminate.
          + destruct (Q2 x Hx Nm) as [X1 [X2 X3]]. split.
            * intros [B|[B|B]]; [|congruence|congruence]. destruct Hx as [ ->|Hx]; [congruence|]. rewrite (Q1 x Hx) in B. discriminate.
            * intros c Hc. left. right. now apply X3.
        - split; [|rewrite Ea; intros c []]. intros [B|[B|B]]; [congruence|rewrite Ea in B; discriminate|rewrite Ea in B; discriminate]. }
      assert (K : forall x c, reachc G x c -> inr lo hi b x \/ x = af -> ~ bad G c).
      { intros x c R. induction R as [x|x y c I R IH]; intros Hx; [now apply NB|]. apply IH. now apply (NB x Hx). }
      intros c R. eapply K; [exact R|left; now left].
    - destruct FR as [c [R B]]. destruct fl; [|reflexivity]. exfalso. apply (proj1 H eq_refl c R B).
  Qed.
End Flags.
