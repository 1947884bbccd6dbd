(** Elaborating circuitries is pasting them, under conditions. *)
From Coq Require Import List Bool Arith ZArith Lia.
Import ListNotations.
From Verif Require Import FsmModel FsmBig CircModel.

Section CstInd.
  Variable P : cst -> Prop.
  Hypothesis HAssign : forall x e, P (CAssign x e).
  Hypothesis HVar : forall x e, P (CVar x e).
  Hypothesis HBlock : forall l, Forall P l -> P (CBlock l).
  Hypothesis HIf : forall e l, Forall P l -> P (CIf e l).
  Hypothesis HIfElse : forall e l1 l2, Forall P l1 -> Forall P l2 -> P (CIfElse e l1 l2).
  Hypothesis HWhile : forall e l, Forall P l -> P (CWhile e l).
  Hypothesis HBreak : P CBreak.
  Hypothesis HStep : P CStep.
  Hypothesis HInst : forall fi fo b ai ao, Forall P b -> P (CInst fi fo b ai ao).
  Fixpoint cst_ind' (st : cst) : P st :=
    let fl := (fix fl (l : list cst) : Forall P l := match l with [] => Forall_nil _ | x :: r => Forall_cons x (cst_ind' x) (fl r) end) in
    match st with
    | CAssign x e => HAssign x e
    | CVar x e => HVar x e
    | CBlock l => HBlock l (fl l)
    | CIf e l => HIf e l (fl l)
    | CIfElse e l1 l2 => HIfElse e l1 l2 (fl l1) (fl l2)
    | CWhile e l => HWhile e l (fl l)
    | CBreak => HBreak
    | CStep => HStep
    | CInst fi fo b ai ao => HInst fi fo b ai ao (fl b)
    end.
End CstInd.

(** * Equivalence of programs, up to stores with the same values *)
Definition eqs (s t : store) : Prop := forall x, s x = t x.
Lemma eqs_refl s : eqs s s. Proof. intros x. reflexivity. Qed.
Lemma eqs_sym s t : eqs s t -> eqs t s. Proof. intros H x. now rewrite H. Qed.
Lemma eqs_trans s t u : eqs s t -> eqs t u -> eqs s u. Proof. intros H K x. now rewrite H. Qed.
Lemma eval_eqs s t e : eqs s t -> eval s e = eval t e.
Proof. intros H. induction e as [n|x|f a IH|f a IHa b IHb]; cbn; [reflexivity|apply H|now rewrite IH|now rewrite IHa, IHb]. Qed.
Lemma upd_eqs s t x v w : eqs s t -> v = w -> eqs (upd s x v) (upd t x w).
Proof. intros H -> y. unfold upd. destruct (Nat.eqb y x); auto. Qed.

Section Equiv.
  Variable ret : bool.
  Notation exec1 := (exec1 ret).
  Notation exec := (exec ret).
  Lemma exec_eqs :
    (forall st s o s', exec1 st s o s' -> forall t, eqs s t -> exists t', exec1 st t o t' /\ eqs s' t') /\
    (forall l s o s', exec l s o s' -> forall t, eqs s t -> exists t', exec l t o t' /\ eqs s' t').
  Proof.
    apply exec_mutind.
    - intros x e s t H. eexists. split; [constructor|]. apply upd_eqs; [exact H|now apply eval_eqs].
    - intros l s o s' _ IH t H. destruct (IH t H) as [t' [A B]]. exists t'. split; [now constructor|exact B].
    - intros e l s o s' _ IH t H. destruct (IH t H) as [t' [A B]]. exists t'. split; [constructor; now rewrite <- (eval_eqs s t e H)|exact B].
    - intros e l1 l2 s o s' _ IH t H. destruct (IH t H) as [t' [A B]]. exists t'. split; [constructor; now rewrite <- (eval_eqs s t e H)|exact B].
    - intros e cs s o s' _ IH t H. destruct (IH t H) as [t' [A B]]. exists t'. split; [constructor; now rewrite <- (eval_eqs s t e H)|exact B].
    - intros e b s T t H. exists t. split; [apply x_while_end; now rewrite <- (eval_eqs s t e H)|exact H].
    - intros e b s s1 s2 T _ IH1 _ IH2 t H. destruct (IH1 t H) as [t1 [A1 B1]]. destruct (IH2 t1 B1) as [t2 [A2 B2]]. exists t2.
      split; [eapply x_while_next; [now rewrite <- (eval_eqs s t e H)|exact A1|exact A2]|exact B2].
    - intros e b s s1 T _ IH t H. destruct (IH t H) as [t1 [A B]]. exists t1. split; [apply x_while_break; [now rewrite <- (eval_eqs s t e H)|exact A]|exact B].
    - intros s t H. exists t. split; [constructor|exact H].
    - intros s t H. exists t. split; [constructor|exact H].
    - intros n s t H. exists t. split; [constructor|exact H].
    - intros s R t H. exists t. split; [now constructor|exact H].
    - intros s t H. exists t. split; [constructor|exact H].
    - intros x r s s1 o s2 _ IH1 _ IH2 t H. destruct (IH1 t H) as [t1 [A1 B1]]. destruct (IH2 t1 B1) as [t2 [A2 B2]]. exists t2. split; [econstructor; eassumption|exact B2].
    - intros x r s s1 _ IH t H. destruct (IH t H) as [t1 [A B]]. exists t1. split; [now apply x_broke|exact B].
  Qed.
  Definition sim (p q : list stmt) : Prop := forall s o s', exec p s o s' -> forall t, eqs s t -> exists t', exec q t o t' /\ eqs s' t'.
  Definition eqv (p q : list stmt) : Prop := sim p q /\ sim q p.
  Lemma sim_refl p : sim p p. Proof. intros s o s' H t E. exact (proj2 exec_eqs _ _ _ _ H t E). Qed.
  Lemma sim_trans p q r : sim p q -> sim q r -> sim p r.
  Proof. intros A B s o s' H t E. destruct (A _ _ _ H s (eqs_refl s)) as [u [U1 U2]]. destruct (B _ _ _ U1 t E) as [t' [T1 T2]]. exists t'. split; [exact T1|]. eapply eqs_trans; eassumption. Qed.
  Lemma eqv_refl p : eqv p p. Proof. split; apply sim_refl. Qed.
  Lemma eqv_sym p q : eqv p q -> eqv q p. Proof. intros [A B]. now split. Qed.
  Lemma eqv_trans p q r : eqv p q -> eqv q r -> eqv p r. Proof. intros [A B] [C D]. split; eapply sim_trans; eassumption. Qed.

  Lemma exec_app p q s o s' : exec (p ++ q) s o s' <-> (exists s1, exec p s Normal s1 /\ exec q s1 o s') \/ (o = Broke /\ exec p s Broke s').
  Proof.
    revert s. induction p as [|x p IH]; intros s; cbn [app].
    - split; [intros H; left; exists s; split; [constructor|exact H]|]. intros [[s1 [A B]]|[_ A]]; inversion A; subst; exact B.
    - split.
      + intros H. inversion H as [|? ? ? s1 ? ? H1 H2|? ? ? ? H1]; subst.
        * apply IH in H2. destruct H2 as [[s2 [A B]]|[ -> A]]; [left; exists s2; split; [econstructor; eassumption|exact B]|right; split; [reflexivity|econstructor; eassumption]].
        * right. split; [reflexivity|now apply x_broke].
      + intros [[s1 [A B]]|[ -> A]].
        * inversion A as [|? ? ? s2 ? ? H1 H2|]; subst. econstructor; [exact H1|]. apply IH. left. exists s1. now split.
        * inversion A as [|? ? ? s2 ? ? H1 H2|? ? ? ? H1]; subst; [econstructor; [exact H1|]; apply IH; right; now split|now apply x_broke].
  Qed.
  Lemma sim_app p p' q q' : sim p p' -> sim q q' -> sim (p ++ q) (p' ++ q').
  Proof.
    intros A B s o s' H t E. apply exec_app in H. destruct H as [[s1 [H1 H2]]|[ -> H1]].
    - destruct (A _ _ _ H1 t E) as [t1 [T1 T2]]. destruct (B _ _ _ H2 t1 T2) as [t2 [U1 U2]]. exists t2. split; [|exact U2]. apply exec_app. left. exists t1. now split.
    - destruct (A _ _ _ H1 t E) as [t1 [T1 T2]]. exists t1. split; [|exact T2]. apply exec_app. right. now split.
  Qed.
  Lemma eqv_app p p' q q' : eqv p p' -> eqv q q' -> eqv (p ++ q) (p' ++ q').
  Proof. intros [A B] [C D]. split; now apply sim_app. Qed.

  Lemma exec_one st s o s' : exec [st] s o s' <-> exec1 st s o s'.
  Proof.
    split.
    - intros H. inversion H as [|? ? ? s1 ? ? H1 H2|? ? ? ? H1]; subst; [inversion H2; subst; exact H1|exact H1].
    - intros H. destruct o; [econstructor; [exact H|constructor]|now apply x_broke].
  Qed.
  Lemma sim_block p q : sim p q -> sim [SBlock p] [SBlock q].
  Proof.
    intros A s o s' H t E. apply exec_one in H. inversion H as [|? ? ? ? H1| | | | | | | | | |]; subst. destruct (A _ _ _ H1 t E) as [t' [T1 T2]].
    exists t'. split; [apply exec_one; now constructor|exact T2].
  Qed.
  Lemma sim_if e p q : sim p q -> sim [SIf e p] [SIf e q].
  Proof.
    intros A s o s' H t E. apply exec_one in H. inversion H as [| |? ? ? ? ? H1| | | | | | | | |]; subst. rewrite (eval_eqs s t e E) in H1.
    assert (X : exists t', exec (if truth (eval t e) then q else []) t o t' /\ eqs s' t') by (destruct (truth (eval t e)); [exact (A _ _ _ H1 t E)|exact (sim_refl [] _ _ _ H1 t E)]).
    destruct X as [t' [T1 T2]]. exists t'. split; [apply exec_one; now constructor|exact T2].
  Qed.
  Lemma sim_ifelse e p q p' q' : sim p p' -> sim q q' -> sim [SIfElse e p q] [SIfElse e p' q'].
  Proof.
    intros A B s o s' H t E. apply exec_one in H. inversion H as [| | |? ? ? ? ? ? H1| | | | | | | |]; subst. rewrite (eval_eqs s t e E) in H1.
    assert (X : exists t', exec (if truth (eval t e) then p' else q') t o t' /\ eqs s' t') by (destruct (truth (eval t e)); [exact (A _ _ _ H1 t E)|exact (B _ _ _ H1 t E)]).
    destruct X as [t' [T1 T2]]. exists t'. split; [apply exec_one; now constructor|exact T2].
  Qed.
  Lemma sim_while e p q : sim p q -> sim [SWhile e p] [SWhile e q].
  Proof.
    intros A.
    assert (X : (forall st s o s', exec1 st s o s' -> st = SWhile e p -> forall t, eqs s t -> exists t', exec1 (SWhile e q) t o t' /\ eqs s' t') /\
      (forall l s o s', exec l s o s' -> True)).
    { apply exec_mutind; try (intros; discriminate); try (intros; exact I).
      - intros e0 b s T [= -> ->] t E. exists t. split; [apply x_while_end; now rewrite <- (eval_eqs s t e E)|exact E].
      - intros e0 b s s1 s2 T H1 _ H2 IH [= -> ->] t E. destruct (A _ _ _ H1 t E) as [t1 [T1 T2]]. destruct (IH eq_refl t1 T2) as [t2 [U1 U2]].
        exists t2. split; [eapply x_while_next; [now rewrite <- (eval_eqs s t e E)|exact T1|exact U1]|exact U2].
      - intros e0 b s s1 T H1 _ [= -> ->] t E. destruct (A _ _ _ H1 t E) as [t1 [T1 T2]]. exists t1. split; [apply x_while_break; [now rewrite <- (eval_eqs s t e E)|exact T1]|exact T2]. }
    intros s o s' H t E. apply exec_one in H. destruct (proj1 X _ _ _ _ H eq_refl t E) as [t' [T1 T2]]. exists t'. split; [now apply exec_one|exact T2].
  Qed.
  Lemma eqv_block p q : eqv p q -> eqv [SBlock p] [SBlock q]. Proof. intros [A B]. split; now apply sim_block. Qed.
  Lemma eqv_if e p q : eqv p q -> eqv [SIf e p] [SIf e q]. Proof. intros [A B]. split; now apply sim_if. Qed.
  Lemma eqv_ifelse e p q p' q' : eqv p p' -> eqv q q' -> eqv [SIfElse e p q] [SIfElse e p' q']. Proof. intros [A B] [C D]. split; now apply sim_ifelse. Qed.
  Lemma eqv_while e p q : eqv p q -> eqv [SWhile e p] [SWhile e q]. Proof. intros [A B]. split; now apply sim_while. Qed.

  (** ** Independent assignments commute *)
  Fixpoint reads (e : expr) : list nat := match e with EC _ => [] | EV x => [x] | EU _ a => reads a | EB _ a b => reads a ++ reads b end.
  Lemma eval_upd s e x v : ~ In x (reads e) -> eval (upd s x v) e = eval s e.
  Proof.
    induction e as [n|y|f a IH|f a IHa b IHb]; cbn; intros H; [reflexivity| |now rewrite IH|].
    - unfold upd. destruct (Nat.eqb_spec y x); [exfalso; apply H; now left|reflexivity].
    - rewrite IHa, IHb; [reflexivity|intros X; apply H; apply in_or_app; now right|intros X; apply H; apply in_or_app; now left].
  Qed.
  Definition asg (i : nat * expr) : stmt := SAssign (fst i) (snd i).
  Definition indep (i j : nat * expr) : Prop := fst i <> fst j /\ ~ In (fst i) (reads (snd j)) /\ ~ In (fst j) (reads (snd i)).
  Lemma swap_sim i j : indep i j -> sim [asg i; asg j] [asg j; asg i].
  Proof.
    destruct i as [x e], j as [y f]. intros [A [B C]]. cbn [fst snd] in *. intros s o s' H t E.
    change [asg (x, e); asg (y, f)] with ([asg (x, e)] ++ [asg (y, f)]) in H. apply exec_app in H.
    destruct H as [[s1 [H1 H2]]|[ -> H1]]; [|apply exec_one in H1; inversion H1]. apply exec_one in H1. apply exec_one in H2. inversion H1; subst. inversion H2; subst.
    exists (upd (upd t y (eval t f)) x (eval (upd t y (eval t f)) e)). split.
    - econstructor; [constructor|]. econstructor; [constructor|]. constructor.
    - intros z. cbn [fst snd asg]. rewrite (eval_upd s f x) by exact B. rewrite (eval_upd t e y) by exact C. rewrite (eval_eqs s t e E), (eval_eqs s t f E).
      unfold upd. destruct (Nat.eqb_spec z y), (Nat.eqb_spec z x); subst; try reflexivity; [congruence|apply E].
  Qed.
  Lemma indep_sym i j : indep i j -> indep j i.
  Proof. intros [A [B C]]. split; [congruence|now split]. Qed.
  Lemma swap_eqv i j : indep i j -> eqv [asg i; asg j] [asg j; asg i].
  Proof. intros H. split; apply swap_sim; [exact H|now apply indep_sym]. Qed.
  Lemma move_eqv i l : (forall j, In j l -> indep i j) -> eqv (asg i :: map asg l) (map asg l ++ [asg i]).
  Proof.
    induction l as [|j l IH]; intros H; [apply eqv_refl|]. cbn [map app].
    eapply eqv_trans; [exact (eqv_app [asg i; asg j] [asg j; asg i] (map asg l) (map asg l) (swap_eqv i j (H j (or_introl eq_refl))) (eqv_refl _))|].
    cbn [app]. apply (eqv_app [asg j] [asg j]); [apply eqv_refl|]. apply IH. intros k Hk. apply H. now right.
  Qed.
  Lemma moves_eqv g l : (forall i j, In i g -> In j l -> indep i j) -> eqv (map asg g ++ map asg l) (map asg l ++ map asg g).
  Proof.
    induction g as [|i g IH]; intros H; cbn [map app]; [rewrite app_nil_r; apply eqv_refl|].
    eapply eqv_trans; [apply (eqv_app [asg i] [asg i]); [apply eqv_refl|apply IH; intros a b Ha Hb; apply H; [now right|exact Hb]]|].
    cbn [app]. change (asg i :: map asg l ++ map asg g) with ((asg i :: map asg l) ++ map asg g).
    eapply eqv_trans; [apply eqv_app; [apply move_eqv; intros j Hj; apply H; [now left|exact Hj]|apply eqv_refl]|]. rewrite <- app_assoc. apply eqv_refl.
  Qed.
  Lemma rev_eqv g : ForallOrdPairs indep g -> eqv (map asg (rev g)) (map asg g).
  Proof.
    induction 1 as [|i g H _ IH]; cbn [rev map]; [apply eqv_refl|]. rewrite map_app. cbn [map].
    eapply eqv_trans; [apply eqv_app; [exact IH|apply eqv_refl]|]. apply eqv_sym. apply move_eqv. apply Forall_forall. exact H.
  Qed.
End Equiv.

(** * Conditions *)
(** Names of the source are below [m]. *)
Definition below (m : nat) (l : list nat) : bool := forallb (fun x => Nat.ltb x m) l.
Fixpoint small (m : nat) (st : cst) : bool :=
  match st with
  | CAssign x e => below m (x :: reads e)
  | CVar x e => below m (x :: match e with Some e => reads e | None => [] end)
  | CBlock l => forallb (small m) l
  | CIf e l => below m (reads e) && forallb (small m) l
  | CIfElse e l1 l2 => below m (reads e) && forallb (small m) l1 && forallb (small m) l2
  | CWhile e l => below m (reads e) && forallb (small m) l
  | CBreak | CStep => true
  | CInst fi fo b ai ao => below m (fi ++ fo ++ ao) && forallb (fun e => below m (reads e)) ai && forallb (small m) b
  end.

(** [safe]: a variable is not declared after a use of its name in the same block; the name of an argument is translated to a name which is not itself translated; an expression
    given as argument does not read the variables assigned before in the same block. *)
Definition is_id (e : expr) : bool := match e with EV _ => true | _ => false end.
Definition stable (r : rules) (x : nat) : bool := Nat.eqb (tr r (tr r x)) (tr r x).
Fixpoint safe (st : cst) (r : rules) (n : nat) (g : seg) {struct st} : bool :=
  let safes := (fix safes (l : list cst) (r : rules) (n : nat) (g : seg) : bool :=
    match l with
    | [] => true
    | x :: l' => safe x r n g && match elab x r n g with Some (_, r1, n1, g1) => safes l' r1 n1 g1 | None => true end
    end) in
  match st with
  | CAssign _ _ | CBreak | CStep => true
  | CVar x _ => forallb (fun i => negb (memb x (fst i :: reads (snd i)))) g
  | CBlock l => safes l r n []
  | CIf _ l => safes l r n []
  | CWhile _ l => safes l r n []
  | CIfElse _ l1 l2 => safes l1 r n [] && match ebody l1 r n with Some (_, n1) => safes l2 r n1 [] | None => true end
  | CInst fi fo b ai ao =>
      let '(vi, _, n1) := idents r n ai in
      forallb (fun e => match e with EV x => stable r x | _ => forallb (fun i => negb (memb (tr r (fst i)) (reads (tre r e)))) g end) ai &&
      forallb (stable r) ao && safes b (rev (combine fo (map (fun x => tr r (tr r x)) ao)) ++ rev (combine fi vi) ++ r) n1 []
  end.
Definition safes : list cst -> rules -> nat -> seg -> bool :=
  fix safes (l : list cst) (r : rules) (n : nat) (g : seg) : bool :=
    match l with
    | [] => true
    | x :: l' => safe x r n g && match elab x r n g with Some (_, r1, n1, g1) => safes l' r1 n1 g1 | None => true end
    end.

(** * Equations *)
Lemma elabs_cons x l r n g : elabs (x :: l) r n g =
  (do (o1, r1, n1, g1) <- elab x r n g; do (o2, r2, n2, g2) <- elabs l r1 n1 g1; Some (o1 ++ o2, r2, n2, g2)).
Proof. reflexivity. Qed.
Lemma elab_block l r n g : elab (CBlock l) r n g = (do (b, n') <- ebody l r n; Some (flush r g ++ [SBlock b], r, n', [])).
Proof. reflexivity. Qed.
Lemma elab_if e l r n g : elab (CIf e l) r n g = (do (b, n') <- ebody l r n; Some (flush r g ++ [SIf (tre r e) b], r, n', [])).
Proof. reflexivity. Qed.
Lemma elab_ifelse e l1 l2 r n g : elab (CIfElse e l1 l2) r n g =
  (do (b1, n1) <- ebody l1 r n; do (b2, n2) <- ebody l2 r n1; Some (flush r g ++ [SIfElse (tre r e) b1 b2], r, n2, [])).
Proof. reflexivity. Qed.
Lemma elab_while e l r n g : elab (CWhile e l) r n g = (do (b, n') <- ebody l r n; Some (flush r g ++ [SWhile (tre r e) b], r, n', [])).
Proof. reflexivity. Qed.
Lemma elab_inst fi fo b ai ao r n g : elab (CInst fi fo b ai ao) r n g =
  let '(vi, ts, n1) := idents r n ai in
  let vo := map (fun x => tr r (tr r x)) ao in
  if negb (Nat.eqb (length fi) (length vi)) || negb (Nat.eqb (length fo) (length vo)) then None
  else
    do (b, n2) <- ebody b (rev (combine fo vo) ++ rev (combine fi vi) ++ r) n1;
    Some (flush r (rev ts ++ g) ++ [SBlock b], r, n2, []).
Proof. reflexivity. Qed.
Lemma pastes_cons x l rho n : pastes (x :: l) rho n =
  let '(o1, rho1, n1) := paste x rho n in let '(o2, rho2, n2) := pastes l rho1 n1 in (o1 ++ o2, rho2, n2).
Proof. reflexivity. Qed.
Lemma paste_block l rho n : paste (CBlock l) rho n = let (b, n') := pbody l rho n in ([SBlock b], rho, n').
Proof. reflexivity. Qed.
Lemma paste_if e l rho n : paste (CIf e l) rho n = let (b, n') := pbody l rho n in ([SIf (sube rho e) b], rho, n').
Proof. reflexivity. Qed.
Lemma paste_ifelse e l1 l2 rho n : paste (CIfElse e l1 l2) rho n =
  let (b1, n1) := pbody l1 rho n in let (b2, n2) := pbody l2 rho n1 in ([SIfElse (sube rho e) b1 b2], rho, n2).
Proof. reflexivity. Qed.
Lemma paste_while e l rho n : paste (CWhile e l) rho n = let (b, n') := pbody l rho n in ([SWhile (sube rho e) b], rho, n').
Proof. reflexivity. Qed.
Lemma paste_inst fi fo b ai ao rho n : paste (CInst fi fo b ai ao) rho n =
  let '(vi, ts, n1) := inputs rho n ai in
  let (b, n2) := pbody b (setl (setl rho fi vi) fo (map rho ao)) n1 in
  (ts ++ [SBlock b], rho, n2).
Proof. reflexivity. Qed.
Lemma safe_block l r n g : safe (CBlock l) r n g = safes l r n []. Proof. reflexivity. Qed.
Lemma safe_if e l r n g : safe (CIf e l) r n g = safes l r n []. Proof. reflexivity. Qed.
Lemma safe_while e l r n g : safe (CWhile e l) r n g = safes l r n []. Proof. reflexivity. Qed.
Lemma safe_ifelse e l1 l2 r n g : safe (CIfElse e l1 l2) r n g =
  safes l1 r n [] && match ebody l1 r n with Some (_, n1) => safes l2 r n1 [] | None => true end.
Proof. reflexivity. Qed.
Lemma safe_inst fi fo b ai ao r n g : safe (CInst fi fo b ai ao) r n g =
  let '(vi, _, n1) := idents r n ai in
  forallb (fun e => match e with EV x => stable r x | _ => forallb (fun i => negb (memb (tr r (fst i)) (reads (tre r e)))) g end) ai &&
  forallb (stable r) ao && safes b (rev (combine fo (map (fun x => tr r (tr r x)) ao)) ++ rev (combine fi vi) ++ r) n1 [].
Proof. reflexivity. Qed.
Lemma safes_cons x l r n g : safes (x :: l) r n g =
  safe x r n g && match elab x r n g with Some (_, r1, n1, g1) => safes l r1 n1 g1 | None => true end.
Proof. reflexivity. Qed.

(** * Translation *)
Lemma tre_sube r rho e : (forall x, tr r x = rho x) -> tre r e = sube rho e.
Proof. intros H. induction e as [k|x|f a IH|f a IHa b IHb]; cbn; [reflexivity|now rewrite H|now rewrite IH|now rewrite IHa, IHb]. Qed.
Lemma tr_cons r x v y : tr ((x, v) :: r) y = if Nat.eqb y x then v else tr r y.
Proof. unfold tr. cbn [assoc fst snd]. rewrite (Nat.eqb_sym x y). destruct (Nat.eqb y x); reflexivity. Qed.
Lemma tr_setv r rho x v : (forall y, tr r y = rho y) -> forall y, tr ((x, v) :: r) y = setv rho x v y.
Proof. intros H y. rewrite tr_cons. unfold setv. now rewrite H. Qed.
Lemma tr_setl xs : forall vs r rho, (forall y, tr r y = rho y) -> forall y, tr (rev (combine xs vs) ++ r) y = setl rho xs vs y.
Proof.
  induction xs as [|x xs IH]; intros vs r rho H y; [exact (H y)|]. destruct vs as [|v vs]; [exact (H y)|].
  cbn [combine rev setl]. rewrite <- app_assoc. cbn [app]. apply IH. now apply tr_setv.
Qed.
Lemma memb_in x l : memb x l = true <-> In x l.
Proof. unfold memb. rewrite existsb_exists. split; [intros [y [A B]]; apply Nat.eqb_eq in B; now subst|intros H; exists x; split; [exact H|apply Nat.eqb_refl]]. Qed.
Lemma memb_nin x l : negb (memb x l) = true -> ~ In x l.
Proof. intros H K. apply memb_in in K. now rewrite K in H. Qed.
Lemma below_in m l : below m l = true -> forall x, In x l -> x < m.
Proof. intros H x Hx. unfold below in H. rewrite forallb_forall in H. now apply Nat.ltb_lt, H. Qed.
Lemma tre_nokey r x v e : ~ In x (reads e) -> tre ((x, v) :: r) e = tre r e.
Proof.
  induction e as [k|y|f a IH|f a IHa b IHb]; cbn [tre reads]; intros H; [reflexivity| |now rewrite IH|].
  - rewrite tr_cons. destruct (Nat.eqb_spec y x); [exfalso; apply H; now left|reflexivity].
  - rewrite IHa, IHb; [reflexivity|intros X; apply H; apply in_or_app; now right|intros X; apply H; apply in_or_app; now left].
Qed.
Lemma flush_nokey r x v g : forallb (fun i => negb (memb x (fst i :: reads (snd i)))) g = true -> flush ((x, v) :: r) g = flush r g.
Proof.
  intros H. rewrite forallb_forall in H. unfold flush. apply map_ext_in. intros [y e] Hi. specialize (H _ Hi). cbn [fst snd] in *. apply memb_nin in H.
  rewrite tre_nokey by (intros X; apply H; now right). rewrite tr_cons. destruct (Nat.eqb_spec y x); [exfalso; apply H; now left|reflexivity].
Qed.

(** * Invariant *)
Definition inv (m : nat) (r : rules) (n : nat) (g : seg) : Prop :=
  m <= n /\ (forall k v, In (k, v) r -> k < m /\ v < n) /\ (forall x e, In (x, e) g -> x < n /\ forall y, In y (reads e) -> y < n).
Lemma assoc_In x (l : list (nat * nat)) v : assoc x l = Some v -> In (x, v) l.
Proof. induction l as [|[k a] l IH]; cbn; [discriminate|]. destruct (Nat.eqb_spec k x); [intros [= ->]; subst; now left|intros H; right; now apply IH]. Qed.
Lemma tr_lt m r n g x : inv m r n g -> x < n -> tr r x < n.
Proof. intros [A [B _]] H. unfold tr. destruct (assoc x r) as [v|] eqn:E; [|exact H]. apply assoc_In in E. now apply B in E. Qed.
Lemma tr_fresh m r n g x : inv m r n g -> m <= x -> tr r x = x.
Proof. intros [A [B _]] H. unfold tr. destruct (assoc x r) as [v|] eqn:E; [|reflexivity]. apply assoc_In in E. apply B in E. lia. Qed.
Lemma reads_tre r e y : In y (reads (tre r e)) -> exists x, In x (reads e) /\ y = tr r x.
Proof.
  induction e as [k|x|f a IH|f a IHa b IHb]; cbn [tre reads]; intros H; [contradiction| |now apply IH|].
  - destruct H as [<-|[]]. exists x. split; [now left|reflexivity].
  - apply in_app_or in H. destruct H as [H|H]; [destruct (IHa H) as [x [X Y]]|destruct (IHb H) as [x [X Y]]]; exists x; (split; [apply in_or_app; auto|exact Y]).
Qed.
Lemma inv_le m r n g n' : inv m r n g -> n <= n' -> inv m r n' g.
Proof.
  intros [A [B C]] H. split; [lia|]. split; [intros k v K; destruct (B k v K); lia|]. intros x e K. destruct (C x e K) as [X Y]. split; [lia|]. intros y Hy. specialize (Y y Hy). lia.
Qed.
Lemma inv_nil m r n g : inv m r n g -> inv m r n [].
Proof. intros [A [B C]]. split; [exact A|]. split; [exact B|]. intros x e []. Qed.

Lemma idents_spec m r n0 g rho ai : inv m r n0 g -> (forall x, tr r x = rho x) -> forall n vi ts n1, n0 <= n -> idents r n ai = (vi, ts, n1) ->
  forallb (fun e => match e with EV x => stable r x | _ => forallb (fun i => negb (memb (tr r (fst i)) (reads (tre r e)))) g end) ai = true ->
  forallb (fun e => below m (reads e)) ai = true ->
  inputs rho n ai = (vi, flush r ts, n1) /\ n <= n1 /\ (forall v, In v vi -> v < n1) /\
  (forall x e, In (x, e) ts -> n <= x < n1 /\ (forall y, In y (reads e) -> y < m) /\ forall i, In i g -> ~ In (tr r (fst i)) (reads (tre r e))) /\
  ForallOrdPairs (fun i j : nat * expr => fst i <> fst j) ts.
Proof.
  intros I R. induction ai as [|e ai IH]; intros n vi ts n1 L E S B.
  - cbn in E. injection E as <- <- <-. cbn. split; [reflexivity|]. split; [lia|]. split; [intros v []|]. split; [intros x e []|constructor].
  - cbn [forallb] in S, B. apply andb_true_iff in S. destruct S as [S1 S2]. apply andb_true_iff in B. destruct B as [B1 B2].
    assert (G : forall vs ts' n', idents r (Datatypes.S n) ai = (vs, ts', n') -> is_id e = false -> (n :: vs, (n, e) :: ts', n') = (vi, ts, n1) ->
      forallb (fun i => negb (memb (tr r (fst i)) (reads (tre r e)))) g = true ->
      inputs rho n (e :: ai) = (vi, flush r ts, n1) /\ n <= n1 /\ (forall v, In v vi -> v < n1) /\
      (forall x e, In (x, e) ts -> n <= x < n1 /\ (forall y, In y (reads e) -> y < m) /\ forall i, In i g -> ~ In (tr r (fst i)) (reads (tre r e))) /\
      ForallOrdPairs (fun i j : nat * expr => fst i <> fst j) ts).
    { intros vs ts' n' E1 Ie [= <- <- <-] S1'. destruct (IH (Datatypes.S n) _ _ _ ltac:(lia) E1 S2 B2) as [X1 [X2 [X3 [X4 X5]]]].
      split; [|split; [lia|split; [|split]]].
      - assert (In1 : inputs rho n (e :: ai) = let '(vs, ts, n') := inputs rho (Datatypes.S n) ai in (n :: vs, SAssign n (sube rho e) :: ts, n')) by (destruct e; [reflexivity|discriminate|reflexivity|reflexivity]).
        rewrite In1, X1. unfold flush at 2. cbn [map fst snd]. rewrite (tr_fresh m r n0 g n I) by (destruct I as [I1 _]; lia). rewrite (tre_sube r rho e R). reflexivity.
      - intros v [<-|Hv]; [lia|]. now apply X3.
      - intros x e0 [[= <- <-]|Hx].
        + split; [lia|]. split; [exact (below_in _ _ B1)|]. intros i Hi. rewrite forallb_forall in S1'. now apply memb_nin, S1'.
        + destruct (X4 x e0 Hx) as [Y1 [Y2 Y3]]. split; [lia|]. now split.
      - constructor; [|exact X5]. apply Forall_forall. intros [x e0] Hx. destruct (X4 x e0 Hx) as [Y1 _]. cbn. lia. }
    destruct e as [k|x|f a|f a b].
    + cbn [idents] in E. destruct (idents r (Datatypes.S n) ai) as [[vs ts'] n'] eqn:E1. now apply (G vs ts' n').
    + cbn [idents] in E. destruct (idents r n ai) as [[vs ts'] n'] eqn:E1. injection E as <- <- <-. destruct (IH n _ _ _ L E1 S2 B2) as [X1 [X2 [X3 [X4 X5]]]].
      unfold stable in S1. apply Nat.eqb_eq in S1. cbn [inputs]. rewrite X1, S1, R. split; [reflexivity|]. split; [exact X2|]. split; [|now split].
      intros v [<-|Hv]; [|now apply X3]. rewrite <- R. assert (tr r x < n0); [|lia]. apply (tr_lt m r n0 g); [exact I|]. pose proof (below_in _ _ B1 x (or_introl eq_refl)). destruct I as [I1 _]. lia.
    + cbn [idents] in E. destruct (idents r (Datatypes.S n) ai) as [[vs ts'] n'] eqn:E1. now apply (G vs ts' n').
    + cbn [idents] in E. destruct (idents r (Datatypes.S n) ai) as [[vs ts'] n'] eqn:E1. now apply (G vs ts' n').
Qed.

(** Temporaries computed at the beginning of the block. *)
Lemma flush_asg r g : flush r g = map asg (map (fun i => (tr r (fst i), tre r (snd i))) g).
Proof. unfold flush. rewrite map_map. reflexivity. Qed.
Lemma flush_app r a b : flush r (a ++ b) = flush r a ++ flush r b.
Proof. apply map_app. Qed.
Lemma hoist_ok ret m r n g ts n1 : inv m r n g ->
  (forall x e, In (x, e) ts -> n <= x < n1 /\ (forall y, In y (reads e) -> y < m) /\ forall i, In i g -> ~ In (tr r (fst i)) (reads (tre r e))) ->
  ForallOrdPairs (fun i j : nat * expr => fst i <> fst j) ts ->
  eqv ret (flush r (rev ts ++ g)) (flush r g ++ flush r ts).
Proof.
  intros I T D.
  assert (Rd : forall x e y, In (x, e) ts -> In y (reads (tre r e)) -> y < n).
  { intros x e y H Hy. destruct (T x e H) as [_ [A _]]. apply reads_tre in Hy. destruct Hy as [z [Hz ->]]. apply (tr_lt m r n g); [exact I|]. specialize (A z Hz). destruct I as [I1 _]. lia. }
  assert (Tx : forall x e, In (x, e) ts -> tr r x = x).
  { intros x e H. destruct (T x e H) as [A _]. apply (tr_fresh m r n g); [exact I|]. destruct I as [I1 _]. lia. }
  rewrite flush_app. eapply eqv_trans.
  - apply eqv_app; [|apply eqv_refl]. instantiate (1 := flush r ts). rewrite !flush_asg, map_rev. apply rev_eqv.
    induction D as [|[x e] ts F D IH]; cbn [map]; constructor.
    + apply Forall_forall. intros [y f] Hy. apply in_map_iff in Hy. destruct Hy as [[y0 f0] [[= <- <-] Hy]]. rewrite Forall_forall in F. specialize (F _ Hy). cbn [fst snd] in F |- *.
      unfold indep. cbn [fst snd]. rewrite (Tx x e) by now left. rewrite (Tx y0 f0) by now right.
      split; [exact F|]. split; intros K.
      * apply (Rd y0 f0) in K; [|now right]. destruct (T x e (or_introl eq_refl)) as [A _]. lia.
      * apply (Rd x e) in K; [|now left]. destruct (T y0 f0 (or_intror Hy)) as [A _]. lia.
    + apply IH; [intros a b H; apply T; now right|intros a b c H; apply Rd with (x := a); now right|intros a b H; apply (Tx a b); now right].
  - rewrite !flush_asg. apply moves_eqv. intros [x e] [y f] Hx Hy. apply in_map_iff in Hx. destruct Hx as [[x0 e0] [[= <- <-] Hx]]. apply in_map_iff in Hy. destruct Hy as [[y0 f0] [[= <- <-] Hy]].
    unfold indep. cbn [fst snd]. rewrite (Tx x0 e0 Hx). destruct (T x0 e0 Hx) as [A [_ A3]]. destruct I as [I1 [I2 I3]]. destruct (I3 _ _ Hy) as [J1 J2].
    assert (LT : forall z, z < n -> tr r z < n) by (intros z; apply (tr_lt m r n g); split; [exact I1|now split]).
    split; [specialize (LT y0 J1); lia|]. split.
    + intros K. apply reads_tre in K. destruct K as [z [Hz Ez]]. specialize (J2 z Hz). specialize (LT z J2). lia.
    + exact (A3 _ Hy).
Qed.

(** * Elaboration is pasting *)
Section Main.
  Variable ret : bool.
  Variable m : nat.
  Definition okst (st : cst) : Prop := forall r n g o r' n' g' rho,
    elab st r n g = Some (o, r', n', g') -> safe st r n g = true -> small m st = true -> (forall x, tr r x = rho x) -> inv m r n g ->
    exists po rho', paste st rho n = (po, rho', n') /\ (forall x, tr r' x = rho' x) /\ inv m r' n' g' /\ n <= n' /\ eqv ret (o ++ flush r' g') (flush r g ++ po).
  Definition okl (l : list cst) : Prop := forall r n g o r' n' g' rho,
    elabs l r n g = Some (o, r', n', g') -> safes l r n g = true -> forallb (small m) l = true -> (forall x, tr r x = rho x) -> inv m r n g ->
    exists po rho', pastes l rho n = (po, rho', n') /\ (forall x, tr r' x = rho' x) /\ inv m r' n' g' /\ n <= n' /\ eqv ret (o ++ flush r' g') (flush r g ++ po).
  Lemma okl_of l : Forall okst l -> okl l.
  Proof.
    induction 1 as [|x l Hx _ IH]; intros r n g o r' n' g' rho E S B R I.
    - cbn in E. injection E as <- <- <- <-. exists [], rho. cbn [app]. rewrite app_nil_r. split; [reflexivity|]. split; [exact R|]. split; [exact I|]. split; [lia|apply eqv_refl].
    - rewrite elabs_cons in E. rewrite safes_cons in S. cbn [forallb] in B. apply andb_true_iff in S. destruct S as [S1 S2]. apply andb_true_iff in B. destruct B as [B1 B2].
      destruct (elab x r n g) as [[[[o1 r1] n1] g1]|] eqn:E1; [|discriminate]. cbn [obind] in E. destruct (elabs l r1 n1 g1) as [[[[o2 r2] n2] g2]|] eqn:E2; [|discriminate]. cbn [obind] in E. injection E as <- <- <- <-.
      destruct (Hx _ _ _ _ _ _ _ rho E1 S1 B1 R I) as [p1 [rho1 [P1 [R1 [I1 [L1 Q1]]]]]].
      destruct (IH _ _ _ _ _ _ _ rho1 E2 S2 B2 R1 I1) as [p2 [rho2 [P2 [R2 [I2 [L2 Q2]]]]]].
      exists (p1 ++ p2), rho2. rewrite pastes_cons, P1, P2. split; [reflexivity|]. split; [exact R2|]. split; [exact I2|]. split; [lia|].
      rewrite <- app_assoc. eapply eqv_trans; [apply eqv_app; [apply eqv_refl|exact Q2]|]. rewrite !app_assoc. apply eqv_app; [exact Q1|apply eqv_refl].
  Qed.
  Lemma ebody_ok l r n b n' rho : okl l -> ebody l r n = Some (b, n') -> safes l r n [] = true -> forallb (small m) l = true -> (forall x, tr r x = rho x) -> inv m r n [] ->
    exists pb, pbody l rho n = (pb, n') /\ n <= n' /\ eqv ret b pb.
  Proof.
    intros H E S B R I. unfold ebody in E. destruct (elabs l r n []) as [[[[o r1] n1] g1]|] eqn:E1; [|discriminate]. cbn [obind] in E. injection E as <- <-.
    destruct (H _ _ _ _ _ _ _ rho E1 S B R I) as [po [rho' [P1 [_ [_ [L Q]]]]]]. exists po. unfold pbody. rewrite P1. split; [reflexivity|]. split; [exact L|exact Q].
  Qed.
  Lemma close_eqv r g p q : eqv ret p q -> eqv ret ((flush r g ++ p) ++ flush r []) (flush r g ++ q).
  Proof. intros H. cbn [flush map]. rewrite app_nil_r. apply eqv_app; [apply eqv_refl|exact H]. Qed.
  Theorem elab_paste st : okst st.
  Proof.
    induction st as [x e|x e|l IH|e l IH|e l1 l2 IH1 IH2|e l IH| | |fi fo b ai ao IH] using cst_ind'; intros r n g o r' n' g' rho E S B R I.
    - injection E as <- <- <- <-. exists [SAssign (rho x) (sube rho e)], rho. split; [reflexivity|]. split; [exact R|]. split.
      + destruct I as [I1 [I2 I3]]. split; [exact I1|]. split; [exact I2|]. intros y f H. apply in_app_or in H. destruct H as [H|[[= <- <-]|[]]]; [now apply I3|].
        pose proof (below_in _ _ B) as Bl. split; [specialize (Bl x (or_introl eq_refl)); lia|]. intros y Hy. specialize (Bl y (or_intror Hy)). lia.
      + split; [lia|]. cbn [app]. rewrite flush_app. cbn [flush map fst snd]. rewrite R, (tre_sube r rho e R). apply eqv_refl.
    - pose proof (below_in _ _ B) as Bl. assert (X : x < m) by (apply Bl; now left).
      assert (I' : inv m ((x, n) :: r) (Datatypes.S n) g).
      { destruct (inv_le _ _ _ _ (Datatypes.S n) I ltac:(lia)) as [I1 [I2 I3]]. split; [exact I1|]. split; [|exact I3]. intros k v [[= <- <-]|H]; [lia|now apply I2]. }
      cbn [safe] in S. destruct e as [e|]; injection E as <- <- <- <-.
      + exists [SAssign n (sube (setv rho x n) e)], (setv rho x n). split; [reflexivity|]. split; [now apply tr_setv|]. split; [|split; [lia|]].
        * destruct I' as [I1 [I2 I3]]. split; [exact I1|]. split; [exact I2|]. intros y f H. apply in_app_or in H. destruct H as [H|[[= <- <-]|[]]]; [now apply I3|].
          split; [lia|]. intros y Hy. specialize (Bl y (or_intror Hy)). lia.
        * cbn [app]. rewrite flush_app, (flush_nokey r x n g S). cbn [flush map fst snd]. rewrite (tr_fresh m _ _ _ n I') by (destruct I as [I1 _]; lia).
          rewrite (tre_sube _ (setv rho x n) e) by now apply tr_setv. apply eqv_refl.
      + exists [], (setv rho x n). split; [reflexivity|]. split; [now apply tr_setv|]. split; [exact I'|]. split; [lia|]. cbn [app]. rewrite (flush_nokey r x n g S), app_nil_r. apply eqv_refl.
    - rewrite elab_block in E. rewrite safe_block in S. cbn [small] in B. destruct (ebody l r n) as [[b n1]|] eqn:E1; [|discriminate]. cbn [obind] in E. injection E as <- <- <- <-.
      destruct (ebody_ok l r n b n1 rho (okl_of _ IH) E1 S B R (inv_nil _ _ _ _ I)) as [pb [P1 [L Q]]]. exists [SBlock pb], rho. rewrite paste_block, P1. split; [reflexivity|]. split; [exact R|].
      split; [exact (inv_nil _ _ _ _ (inv_le _ _ _ _ _ I L))|]. split; [exact L|]. apply close_eqv. now apply eqv_block.
    - rewrite elab_if in E. rewrite safe_if in S. cbn [small] in B. apply andb_true_iff in B. destruct B as [B1 B2]. destruct (ebody l r n) as [[b n1]|] eqn:E1; [|discriminate]. cbn [obind] in E. injection E as <- <- <- <-.
      destruct (ebody_ok l r n b n1 rho (okl_of _ IH) E1 S B2 R (inv_nil _ _ _ _ I)) as [pb [P1 [L Q]]]. exists [SIf (sube rho e) pb], rho. rewrite paste_if, P1. split; [reflexivity|]. split; [exact R|].
      split; [exact (inv_nil _ _ _ _ (inv_le _ _ _ _ _ I L))|]. split; [exact L|]. rewrite (tre_sube r rho e R). apply close_eqv. now apply eqv_if.
    - rewrite elab_ifelse in E. rewrite safe_ifelse in S. cbn [small] in B. apply andb_true_iff in B. destruct B as [B B3]. apply andb_true_iff in B. destruct B as [B1 B2]. apply andb_true_iff in S. destruct S as [S1 S2].
      destruct (ebody l1 r n) as [[b1 n1]|] eqn:E1; [|discriminate]. cbn [obind] in E. destruct (ebody l2 r n1) as [[b2 n2]|] eqn:E2; [|discriminate]. cbn [obind] in E. injection E as <- <- <- <-.
      destruct (ebody_ok l1 r n b1 n1 rho (okl_of _ IH1) E1 S1 B2 R (inv_nil _ _ _ _ I)) as [p1 [P1 [L1 Q1]]].
      destruct (ebody_ok l2 r n1 b2 n2 rho (okl_of _ IH2) E2 S2 B3 R (inv_nil _ _ _ _ (inv_le _ _ _ _ _ I L1))) as [p2 [P2 [L2 Q2]]].
      exists [SIfElse (sube rho e) p1 p2], rho. rewrite paste_ifelse, P1, P2. split; [reflexivity|]. split; [exact R|].
      assert (L : n <= n2) by lia. split; [exact (inv_nil _ _ _ _ (inv_le _ _ _ _ _ I L))|]. split; [exact L|]. rewrite (tre_sube r rho e R). apply close_eqv. now apply eqv_ifelse.
    - rewrite elab_while in E. rewrite safe_while in S. cbn [small] in B. apply andb_true_iff in B. destruct B as [B1 B2]. destruct (ebody l r n) as [[b n1]|] eqn:E1; [|discriminate]. cbn [obind] in E. injection E as <- <- <- <-.
      destruct (ebody_ok l r n b n1 rho (okl_of _ IH) E1 S B2 R (inv_nil _ _ _ _ I)) as [pb [P1 [L Q]]]. exists [SWhile (sube rho e) pb], rho. rewrite paste_while, P1. split; [reflexivity|]. split; [exact R|].
      split; [exact (inv_nil _ _ _ _ (inv_le _ _ _ _ _ I L))|]. split; [exact L|]. rewrite (tre_sube r rho e R). apply close_eqv. now apply eqv_while.
    - injection E as <- <- <- <-. exists [SBreak], rho. split; [reflexivity|]. split; [exact R|]. split; [exact (inv_nil _ _ _ _ I)|]. split; [lia|]. apply close_eqv, eqv_refl.
    - injection E as <- <- <- <-. exists [SStep], rho. split; [reflexivity|]. split; [exact R|]. split; [exact (inv_nil _ _ _ _ I)|]. split; [lia|]. apply close_eqv, eqv_refl.
    - rewrite elab_inst in E. rewrite safe_inst in S. cbn [small] in B. apply andb_true_iff in B. destruct B as [B B3]. apply andb_true_iff in B. destruct B as [B1 B2].
      destruct (idents r n ai) as [[vi ts] n1] eqn:E1. cbn zeta in E. apply andb_true_iff in S. destruct S as [S S3]. apply andb_true_iff in S. destruct S as [S1 S2].
      destruct (negb (length fi =? length vi) || negb (length fo =? length (map (fun x => tr r (tr r x)) ao))); [discriminate|].
      destruct (idents_spec m r n g rho ai I R n vi ts n1 (le_n n) E1 S1 B2) as [X1 [X2 [X3 [X4 X5]]]].
      assert (Vo : map (fun x => tr r (tr r x)) ao = map rho ao).
      { apply map_ext_in. intros x Hx. rewrite forallb_forall in S2. specialize (S2 x Hx). unfold stable in S2. apply Nat.eqb_eq in S2. rewrite S2. apply R. }
      rewrite Vo in *.
      set (r1 := rev (combine fo (map rho ao)) ++ rev (combine fi vi) ++ r) in *.
      assert (R1 : forall x, tr r1 x = setl (setl rho fi vi) fo (map rho ao) x) by (apply tr_setl; now apply tr_setl).
      pose proof (below_in _ _ B1) as Bl.
      assert (I1 : inv m r1 n1 []).
      { destruct (inv_le _ _ _ _ n1 I X2) as [J1 [J2 J3]]. split; [exact J1|]. split; [|intros x e []]. intros k v H. unfold r1 in H. apply in_app_or in H. destruct H as [H|H].
        - apply in_rev in H. split; [apply Bl; apply in_or_app; right; apply in_or_app; left; eapply in_combine_l, H|]. apply in_combine_r in H. apply in_map_iff in H. destruct H as [x [<- Hx]].
          rewrite <- R. assert (tr r x < n); [|lia]. apply (tr_lt m r n g); [exact I|]. assert (x < m); [|destruct I as [K _]; lia]. apply Bl. apply in_or_app. right. apply in_or_app. now right.
        - apply in_app_or in H. destruct H as [H|H]; [|now apply J2]. apply in_rev in H. split; [apply Bl; apply in_or_app; left; eapply in_combine_l, H|]. apply X3. eapply in_combine_r, H. }
      destruct (ebody b r1 n1) as [[b1 n2]|] eqn:E2; [|discriminate]. cbn [obind] in E. injection E as <- <- <- <-.
      destruct (ebody_ok b r1 n1 b1 n2 (setl (setl rho fi vi) fo (map rho ao)) (okl_of _ IH) E2 S3 B3 R1 I1) as [pb [P1 [L Q]]].
      exists (flush r ts ++ [SBlock pb]), rho. rewrite paste_inst, X1, P1. split; [reflexivity|]. split; [exact R|].
      assert (L2 : n <= n2) by lia. split; [exact (inv_nil _ _ _ _ (inv_le _ _ _ _ _ I L2))|]. split; [exact L2|].
      change (flush r []) with (@nil stmt). rewrite app_nil_r, app_assoc. apply eqv_app; [|now apply eqv_block]. exact (hoist_ok ret m r n g ts n1 I X4 X5).
  Qed.
  Theorem elaborate_paste n l p : m <= n -> forallb (small m) l = true -> safes l [] n [] = true -> elaborate n l = Some p -> eqv ret p (pasted n l).
  Proof.
    intros L B S E. unfold elaborate in E. destruct (ebody l [] n) as [[b n']|] eqn:E1; [|discriminate]. cbn [obind] in E. injection E as <-.
    assert (I : inv m [] n []) by (split; [exact L|split; [intros k v []|intros x e []]]).
    destruct (ebody_ok l [] n b n' (fun x => x) (okl_of l (proj2 (Forall_forall _ l) (fun st _ => elab_paste st))) E1 S B (fun x => eq_refl) I) as [pb [P1 [_ Q]]]. unfold pasted. rewrite P1. exact Q.
  Qed.
End Main.
