(** An instance of a circuitry runs as the circuitry on its own variables. *)
From Coq Require Import List Bool Arith ZArith Lia.
Import ListNotations.
From Verif Require Import FsmModel FsmBig CircModel CircProofs.

(** * Renaming of variables in a program without switch, goto and call *)
Fixpoint rens (th : env) (st : stmt) : stmt :=
  match st with
  | SAssign x e => SAssign (th x) (sube th e)
  | SBlock l => SBlock (map (rens th) l)
  | SIf e l => SIf (sube th e) (map (rens th) l)
  | SIfElse e l1 l2 => SIfElse (sube th e) (map (rens th) l1) (map (rens th) l2)
  | SWhile e l => SWhile (sube th e) (map (rens th) l)
  | st => st
  end.
Definition ren (th : env) (l : list stmt) : list stmt := map (rens th) l.
Inductive vin (W : nat -> Prop) : stmt -> Prop :=
| v_assign x e : W x -> (forall y, In y (reads e) -> W y) -> vin W (SAssign x e)
| v_block l : Forall (vin W) l -> vin W (SBlock l)
| v_if e l : (forall y, In y (reads e) -> W y) -> Forall (vin W) l -> vin W (SIf e l)
| v_ifelse e l1 l2 : (forall y, In y (reads e) -> W y) -> Forall (vin W) l1 -> Forall (vin W) l2 -> vin W (SIfElse e l1 l2)
| v_while e l : (forall y, In y (reads e) -> W y) -> Forall (vin W) l -> vin W (SWhile e l)
| v_break : vin W SBreak
| v_step : vin W SStep.

Section Ren.
  Variable ret : bool.
  Variable th : env.
  Variable W : nat -> Prop.
  Hypothesis inj : forall x y, W x -> W y -> th x = th y -> x = y.
  Definition agree (s t : store) : Prop := forall x, W x -> t (th x) = s x.
  Definition frame (t t' : store) : Prop := forall y, (forall x, W x -> y <> th x) -> t' y = t y.
  Lemma frame_refl t : frame t t. Proof. intros y _. reflexivity. Qed.
  Lemma frame_trans t u v : frame t u -> frame u v -> frame t v. Proof. intros A B y H. now rewrite (B y H), (A y H). Qed.
  Lemma eval_ren s t e : agree s t -> (forall y, In y (reads e) -> W y) -> eval t (sube th e) = eval s e.
  Proof.
    intros A. induction e as [k|x|f a IH|f a IHa b IHb]; cbn; intros H; [reflexivity|apply A; apply H; now left|now rewrite IH|].
    rewrite IHa, IHb; [reflexivity|intros y Hy; apply H; apply in_or_app; now right|intros y Hy; apply H; apply in_or_app; now left].
  Qed.
  Lemma agree_upd s t x v : W x -> agree s t -> agree (upd s x v) (upd t (th x) v).
  Proof. intros Hx A y Hy. unfold upd. destruct (Nat.eqb_spec y x) as [ ->|N]; [now rewrite Nat.eqb_refl|]. destruct (Nat.eqb_spec (th y) (th x)) as [E|]; [exfalso; apply N; now apply inj|now apply A]. Qed.
  Lemma frame_upd t x v : W x -> frame t (upd t (th x) v).
  Proof. intros Hx y Hy. unfold upd. destruct (Nat.eqb_spec y (th x)) as [E|]; [exfalso; now apply (Hy x)|reflexivity]. Qed.
  Lemma exec_ren :
    (forall st s o s', exec1 ret st s o s' -> vin W st -> forall t, agree s t -> exists t', exec1 ret (rens th st) t o t' /\ agree s' t' /\ frame t t') /\
    (forall l s o s', exec ret l s o s' -> Forall (vin W) l -> forall t, agree s t -> exists t', exec ret (ren th l) t o t' /\ agree s' t' /\ frame t t').
  Proof.
    apply exec_mutind.
    - intros x e s V t A. inversion V; subst. exists (upd t (th x) (eval t (sube th e))). split; [constructor|]. rewrite (eval_ren s t e A) by assumption.
      split; [now apply agree_upd|now apply frame_upd].
    - intros l s o s' _ IH V t A. inversion V; subst. destruct (IH ltac:(assumption) t A) as [t' [E K]]. exists t'. split; [now constructor|exact K].
    - intros e l s o s' _ IH V t A. inversion V as [| |? ? V1 V2| | | |]; subst. assert (X : Forall (vin W) (if truth (eval s e) then l else [])) by (destruct (truth (eval s e)); [exact V2|constructor]).
      destruct (IH X t A) as [t' [E K]]. exists t'. split; [|exact K]. cbn [rens]. constructor. rewrite (eval_ren s t e A V1). destruct (truth (eval s e)); exact E.
    - intros e l1 l2 s o s' _ IH V t A. inversion V as [| | |? ? ? V1 V2 V3| | |]; subst. assert (X : Forall (vin W) (if truth (eval s e) then l1 else l2)) by (destruct (truth (eval s e)); assumption).
      destruct (IH X t A) as [t' [E K]]. exists t'. split; [|exact K]. cbn [rens]. constructor. rewrite (eval_ren s t e A V1). destruct (truth (eval s e)); exact E.
    - intros e cs s o s' _ _ V. inversion V.
    - intros e b s T V t A. inversion V as [| | | |? ? V1 V2| |]; subst. exists t. split; [|split; [exact A|apply frame_refl]]. cbn [rens]. apply x_while_end. now rewrite (eval_ren s t e A V1).
    - intros e b s s1 s2 T _ IH1 _ IH2 V t A. inversion V as [| | | |? ? V1 V2| |]; subst. destruct (IH1 V2 t A) as [t1 [E1 [K1 F1]]]. destruct (IH2 V t1 K1) as [t2 [E2 [K2 F2]]].
      exists t2. split; [|split; [exact K2|eapply frame_trans; eassumption]]. cbn [rens] in *. eapply x_while_next; [now rewrite (eval_ren s t e A V1)|exact E1|exact E2].
    - intros e b s s1 T _ IH V t A. inversion V as [| | | |? ? V1 V2| |]; subst. destruct (IH V2 t A) as [t1 [E1 [K1 F1]]]. exists t1. split; [|now split]. cbn [rens]. apply x_while_break; [now rewrite (eval_ren s t e A V1)|exact E1].
    - intros s V t A. exists t. split; [constructor|]. split; [exact A|apply frame_refl].
    - intros s V t A. exists t. split; [constructor|]. split; [exact A|apply frame_refl].
    - intros n s V. inversion V.
    - intros s _ V. inversion V.
    - intros s V t A. exists t. split; [constructor|]. split; [exact A|apply frame_refl].
    - intros x r s s1 o s2 _ IH1 _ IH2 V t A. inversion V; subst. destruct (IH1 ltac:(assumption) t A) as [t1 [E1 [K1 F1]]]. destruct (IH2 ltac:(assumption) t1 K1) as [t2 [E2 [K2 F2]]].
      exists t2. split; [econstructor; eassumption|]. split; [exact K2|eapply frame_trans; eassumption].
    - intros x r s s1 _ IH V t A. inversion V; subst. destruct (IH ltac:(assumption) t A) as [t1 [E1 K]]. exists t1. split; [now apply x_broke|exact K].
  Qed.
  (** Conversely. *)
  Lemma exec_ren_inv :
    (forall st' t o t', exec1 ret st' t o t' -> forall st, st' = rens th st -> vin W st -> forall s, agree s t -> exists s', exec1 ret st s o s' /\ agree s' t' /\ frame t t') /\
    (forall l' t o t', exec ret l' t o t' -> forall l, l' = ren th l -> Forall (vin W) l -> forall s, agree s t -> exists s', exec ret l s o s' /\ agree s' t' /\ frame t t').
  Proof.
    apply exec_mutind.
    - intros x e t st E V s A. destruct V as [x0 e0 V1 V2| | | | | |]; cbn in E; try discriminate. injection E as -> ->. exists (upd s x0 (eval s e0)). split; [constructor|].
      rewrite (eval_ren s t e0 A V2). split; [now apply agree_upd|now apply frame_upd].
    - intros l t o t' _ IH st E V s A. destruct V as [|l0 V1| | | | |]; cbn in E; try discriminate. injection E as ->. destruct (IH _ eq_refl V1 s A) as [s' [X K]]. exists s'. split; [now constructor|exact K].
    - intros e l t o t' _ IH st E V s A. destruct V as [| |e0 l0 V1 V2| | | |]; cbn in E; try discriminate. injection E as -> ->. rewrite (eval_ren s t e0 A V1) in IH.
      destruct (IH (if truth (eval s e0) then l0 else []) ltac:(now destruct (truth (eval s e0))) ltac:(destruct (truth (eval s e0)); [exact V2|constructor]) s A) as [s' [X K]]. exists s'. split; [now constructor|exact K].
    - intros e l1 l2 t o t' _ IH st E V s A. destruct V as [| | |e0 l01 l02 V1 V2 V3| | |]; cbn in E; try discriminate. injection E as -> -> ->. rewrite (eval_ren s t e0 A V1) in IH.
      destruct (IH (if truth (eval s e0) then l01 else l02) ltac:(now destruct (truth (eval s e0))) ltac:(destruct (truth (eval s e0)); assumption) s A) as [s' [X K]]. exists s'. split; [now constructor|exact K].
    - intros e cs t o t' _ _ st E V. destruct V; discriminate.
    - intros e b t T st E V s A. destruct V as [| | | |e0 l0 V1 V2| |]; cbn in E; try discriminate. injection E as -> ->. exists s. split; [|split; [exact A|apply frame_refl]]. apply x_while_end. now rewrite <- (eval_ren s t e0 A V1).
    - intros e b t t1 t2 T _ IH1 _ IH2 st E V s A. destruct V as [| | | |e0 l0 V1 V2| |]; cbn in E; try discriminate. injection E as -> ->. destruct (IH1 _ eq_refl V2 s A) as [s1 [X1 [K1 F1]]].
      destruct (IH2 (SWhile e0 l0) eq_refl ltac:(now constructor) s1 K1) as [s2 [X2 [K2 F2]]]. exists s2. split; [|split; [exact K2|eapply frame_trans; eassumption]]. eapply x_while_next; [now rewrite <- (eval_ren s t e0 A V1)|exact X1|exact X2].
    - intros e b t t1 T _ IH st E V s A. destruct V as [| | | |e0 l0 V1 V2| |]; cbn in E; try discriminate. injection E as -> ->. destruct (IH _ eq_refl V2 s A) as [s1 [X1 K1]].
      exists s1. split; [|exact K1]. apply x_while_break; [now rewrite <- (eval_ren s t e0 A V1)|exact X1].
    - intros t st E V s A. destruct V; try discriminate. exists s. split; [constructor|]. split; [exact A|apply frame_refl].
    - intros t st E V s A. destruct V; try discriminate. exists s. split; [constructor|]. split; [exact A|apply frame_refl].
    - intros n t st E V. destruct V; discriminate.
    - intros t _ st E V. destruct V; discriminate.
    - intros t l E V s A. destruct l; [|discriminate]. exists s. split; [constructor|]. split; [exact A|apply frame_refl].
    - intros x r t t1 o t2 _ IH1 _ IH2 l E V s A. destruct l as [|x0 l0]; [discriminate|]. injection E as -> ->. inversion V as [|? ? V1 V2]; subst.
      destruct (IH1 x0 eq_refl V1 s A) as [s1 [X1 [K1 F1]]]. destruct (IH2 l0 eq_refl V2 s1 K1) as [s2 [X2 [K2 F2]]]. exists s2. split; [econstructor; eassumption|]. split; [exact K2|eapply frame_trans; eassumption].
    - intros x r t t1 _ IH l E V s A. destruct l as [|x0 l0]; [discriminate|]. injection E as -> ->. inversion V as [|? ? V1 V2]; subst. destruct (IH x0 eq_refl V1 s A) as [s1 [X1 K1]].
      exists s1. split; [now apply x_broke|exact K1].
  Qed.
End Ren.

(** * Names in scope: [scoped st D = Some D']: the names read and assigned are in [D] or declared; [D'] are the names in scope after [st]. *)
Definition sub (l D : list nat) : bool := forallb (fun x => memb x D) l.
Fixpoint scoped (st : cst) (D : list nat) {struct st} : option (list nat) :=
  let scopeds := (fix scopeds (l : list cst) (D : list nat) : option (list nat) :=
    match l with
    | [] => Some D
    | x :: l' => do D1 <- scoped x D; scopeds l' D1
    end) in
  match st with
  | CAssign x e => if sub (x :: reads e) D then Some D else None
  | CVar x None => Some (x :: D)
  | CVar x (Some e) => if sub (reads e) (x :: D) then Some (x :: D) else None
  | CBlock l => do _ <- scopeds l D; Some D
  | CIf e l => if sub (reads e) D then do _ <- scopeds l D; Some D else None
  | CIfElse e l1 l2 => if sub (reads e) D then do _ <- scopeds l1 D; do _ <- scopeds l2 D; Some D else None
  | CWhile e l => if sub (reads e) D then do _ <- scopeds l D; Some D else None
  | CBreak | CStep => Some D
  | CInst fi fo b ai ao =>
      if forallb (fun e => sub (reads e) D) ai && sub ao D && Nat.eqb (length fi) (length ai) && Nat.eqb (length fo) (length ao)
      then do _ <- scopeds b (fo ++ fi ++ D); Some D else None
  end.
Definition scopeds : list cst -> list nat -> option (list nat) :=
  fix scopeds (l : list cst) (D : list nat) : option (list nat) :=
    match l with
    | [] => Some D
    | x :: l' => do D1 <- scoped x D; scopeds l' D1
    end.
Lemma sub_in l D : sub l D = true -> forall x, In x l -> In x D.
Proof. intros H x Hx. unfold sub in H. rewrite forallb_forall in H. now apply memb_in, H. Qed.

Lemma setl_in xs : forall vs rho x, length xs = length vs -> In x xs -> In (setl rho xs vs x) vs.
Proof.
  induction xs as [|y xs IH]; intros vs rho x L H; [destruct H|]. destruct vs as [|v vs]; [discriminate|]. cbn in L. injection L as L. cbn [setl].
  destruct (in_dec Nat.eq_dec x xs) as [K|K]; [right; now apply IH|]. destruct H as [ ->|H]; [|contradiction]. left.
  assert (X : forall zs ws rho, ~ In x zs -> setl rho zs ws x = rho x).
  { induction zs as [|z zs IHz]; intros ws r H; [reflexivity|]. destruct ws as [|w ws]; [reflexivity|]. cbn [setl]. rewrite IHz by (intros X; apply H; now right). unfold setv.
    destruct (Nat.eqb_spec x z) as [ ->|]; [exfalso; apply H; now left|reflexivity]. }
  rewrite X by exact K. unfold setv. now rewrite Nat.eqb_refl.
Qed.
Lemma setl_out xs : forall vs rho x, ~ In x xs -> setl rho xs vs x = rho x.
Proof.
  induction xs as [|z zs IHz]; intros ws r x H; [reflexivity|]. destruct ws as [|w ws]; [reflexivity|]. cbn [setl]. rewrite IHz by (intros X; apply H; now right). unfold setv.
  destruct (Nat.eqb_spec x z) as [ ->|]; [exfalso; apply H; now left|reflexivity].
Qed.
Lemma setl_map th xs : forall vs rho rho' x, (In x xs \/ rho' x = th (rho x)) -> length xs = length vs -> setl rho' xs (map th vs) x = th (setl rho xs vs x).
Proof.
  induction xs as [|y xs IH]; intros vs rho rho' x H L; [destruct H as [[]|H]; exact H|]. destruct vs as [|v vs]; [discriminate|]. cbn in L. injection L as L. cbn [setl map].
  apply IH; [|exact L]. destruct (in_dec Nat.eq_dec x xs) as [K|K]; [now left|]. right. unfold setv. destruct (Nat.eqb_spec x y) as [ ->|N]; [reflexivity|]. destruct H as [[E|H]|H]; [congruence|contradiction|exact H].
Qed.
Lemma reads_sube rho e y : In y (reads (sube rho e)) -> exists x, In x (reads e) /\ y = rho x.
Proof.
  induction e as [k|x|f a IH|f a IHa b IHb]; cbn [sube reads]; intros H; [contradiction| |now apply IH|].
  - destruct H as [<-|[]]. exists x. split; [now left|reflexivity].
  - apply in_app_or in H. destruct H as [H|H]; [destruct (IHa H) as [x [X Y]]|destruct (IHb H) as [x [X Y]]]; exists x; (split; [apply in_or_app; auto|exact Y]).
Qed.
Lemma sube_map th rho rho' e : (forall x, In x (reads e) -> rho' x = th (rho x)) -> sube rho' e = sube th (sube rho e).
Proof.
  induction e as [k|x|f a IH|f a IHa b IHb]; cbn [sube reads]; intros H; [reflexivity|now rewrite H by now left|now rewrite IH|].
  rewrite IHa, IHb; [reflexivity|intros y Hy; apply H; apply in_or_app; now right|intros y Hy; apply H; apply in_or_app; now left].
Qed.

(** * Pasting and renaming *)
Section Paste.
  Variables (th : env) (W : nat -> Prop) (N N' : nat).
  Hypothesis Wn : forall k, N <= k -> W k.
  Hypothesis tn : forall k, th (N + k) = N' + k.
  Definition link (D : list nat) (rho rho' : env) : Prop := forall x, In x D -> W (rho x) /\ rho' x = th (rho x).
  Lemma link_setv D rho rho' x k : link D rho rho' -> link (x :: D) (setv rho x (N + k)) (setv rho' x (N' + k)).
  Proof.
    intros H y Hy. unfold setv. destruct (Nat.eqb_spec y x) as [ ->|Ne]; [split; [apply Wn; lia|now rewrite tn]|]. destruct Hy as [ ->|Hy]; [congruence|now apply H].
  Qed.
  Lemma link_sube D rho rho' e : link D rho rho' -> sub (reads e) D = true -> sube rho' e = sube th (sube rho e) /\ forall y, In y (reads (sube rho e)) -> W y.
  Proof.
    intros H S. pose proof (sub_in _ _ S) as S'. split; [apply sube_map; intros x Hx; now apply H, S'|]. intros y Hy. apply reads_sube in Hy. destruct Hy as [x [Hx ->]]. now apply H, S'.
  Qed.
  Definition pok (st : cst) : Prop := forall D D' rho rho' k, scoped st D = Some D' -> link D rho rho' ->
    exists p r1 r2 j, paste st rho (N + k) = (p, r1, N + j) /\ paste st rho' (N' + k) = (ren th p, r2, N' + j) /\ link D' r1 r2 /\ Forall (vin W) p.
  Definition pokl (l : list cst) : Prop := forall D D' rho rho' k, scopeds l D = Some D' -> link D rho rho' ->
    exists p r1 r2 j, pastes l rho (N + k) = (p, r1, N + j) /\ pastes l rho' (N' + k) = (ren th p, r2, N' + j) /\ link D' r1 r2 /\ Forall (vin W) p.
  Lemma pokl_of l : Forall pok l -> pokl l.
  Proof.
    induction 1 as [|x l Hx _ IH]; intros D D' rho rho' k S L.
    - cbn in S. injection S as <-. exists [], rho, rho', k. split; [reflexivity|]. split; [reflexivity|]. split; [exact L|constructor].
    - change (scopeds (x :: l) D) with (do D1 <- scoped x D; scopeds l D1) in S. destruct (scoped x D) as [D1|] eqn:S1; [|discriminate]. cbn [obind] in S.
      destruct (Hx _ _ _ _ k S1 L) as [p1 [a1 [a2 [j1 [P1 [P2 [L1 V1]]]]]]]. destruct (IH _ _ _ _ j1 S L1) as [p2 [b1 [b2 [j2 [Q1 [Q2 [L2 V2]]]]]]].
      exists (p1 ++ p2), b1, b2, j2. rewrite !pastes_cons, P1, P2, Q1, Q2. unfold ren. rewrite map_app. split; [reflexivity|]. split; [reflexivity|]. split; [exact L2|]. apply Forall_app. now split.
  Qed.
  Lemma pbok l D D' rho rho' k : Forall pok l -> scopeds l D = Some D' -> link D rho rho' ->
    exists p j, pbody l rho (N + k) = (p, N + j) /\ pbody l rho' (N' + k) = (ren th p, N' + j) /\ Forall (vin W) p.
  Proof.
    intros H S L. destruct (pokl_of _ H _ _ _ _ k S L) as [p [r1 [r2 [j [P1 [P2 [_ V]]]]]]]. exists p, j. unfold pbody. rewrite P1, P2. now split.
  Qed.
  Lemma inputs_ok D rho rho' : link D rho rho' -> forall ai k, forallb (fun e => sub (reads e) D) ai = true ->
    exists vi ts j, inputs rho (N + k) ai = (vi, ts, N + j) /\ inputs rho' (N' + k) ai = (map th vi, ren th ts, N' + j) /\ (forall v, In v vi -> W v) /\ Forall (vin W) ts /\ length vi = length ai.
  Proof.
    intros L. induction ai as [|e ai IH]; intros k S.
    - exists [], [], k. cbn. repeat split; [intros v []|constructor].
    - cbn [forallb] in S. apply andb_true_iff in S. destruct S as [S1 S2]. destruct (link_sube _ _ _ e L S1) as [E1 E2].
      assert (G : is_id e = false -> exists vi ts j, (let '(vs, ts, n') := inputs rho (S (N + k)) ai in (N + k :: vs, SAssign (N + k) (sube rho e) :: ts, n')) = (vi, ts, N + j) /\
        (let '(vs, ts, n') := inputs rho' (S (N' + k)) ai in (N' + k :: vs, SAssign (N' + k) (sube rho' e) :: ts, n')) = (map th vi, ren th ts, N' + j) /\
        (forall v, In v vi -> W v) /\ Forall (vin W) ts /\ length vi = length (e :: ai)).
      { intros _. destruct (IH (S k) S2) as [vi [ts [j [A [B [C [D1 LL]]]]]]]. exists (N + k :: vi), (SAssign (N + k) (sube rho e) :: ts), j.
        replace (S (N + k)) with (N + S k) by lia. replace (S (N' + k)) with (N' + S k) by lia. rewrite A, B. split; [reflexivity|]. split.
        - cbn [map ren rens]. rewrite tn, E1. reflexivity.
        - split; [intros v [<-|Hv]; [apply Wn; lia|now apply C]|]. split; [constructor; [constructor; [apply Wn; lia|exact E2]|exact D1]|cbn; now rewrite LL]. }
      destruct e as [z|x|f a|f a b].
      + exact (G eq_refl).
      + destruct (IH k S2) as [vi [ts [j [A [B [C [D1 LL]]]]]]]. exists (rho x :: vi), ts, j. cbn [inputs]. rewrite A, B. split; [reflexivity|]. split; [|split; [|split; [exact D1|cbn; now rewrite LL]]].
        * cbn [map]. destruct (L x) as [_ ->]; [apply (sub_in _ _ S1); now left|reflexivity].
        * intros v [<-|Hv]; [|now apply C]. apply L. apply (sub_in _ _ S1). now left.
      + exact (G eq_refl).
      + exact (G eq_refl).
  Qed.
  Theorem paste_ren st : pok st.
  Proof.
    induction st as [x e|x e|l IH|e l IH|e l1 l2 IH1 IH2|e l IH| | |fi fo b ai ao IH] using cst_ind'; intros D D' rho rho' k S L.
    - cbn [scoped] in S. destruct (sub (x :: reads e) D) eqn:E; [|discriminate]. injection S as <-. cbn [sub forallb] in E. apply andb_true_iff in E. destruct E as [E1 E2]. apply memb_in in E1.
      destruct (link_sube _ _ _ e L E2) as [A B]. destruct (L x E1) as [C1 C2]. exists [SAssign (rho x) (sube rho e)], rho, rho', k. split; [reflexivity|]. split; [cbn; now rewrite A, C2|]. split; [exact L|].
      constructor; [|constructor]. now constructor.
    - pose proof (link_setv D rho rho' x k L) as L'. destruct e as [e|]; cbn [scoped] in S.
      + destruct (sub (reads e) (x :: D)) eqn:E; [|discriminate]. injection S as <-. destruct (link_sube _ _ _ e L' E) as [A B].
        exists [SAssign (N + k) (sube (setv rho x (N + k)) e)], (setv rho x (N + k)), (setv rho' x (N' + k)), (Datatypes.S k). split; [cbn; now rewrite Nat.add_succ_r|]. split; [cbn; now rewrite A, tn, Nat.add_succ_r|].
        split; [exact L'|]. constructor; [|constructor]. constructor; [apply Wn; lia|exact B].
      + injection S as <-. exists [], (setv rho x (N + k)), (setv rho' x (N' + k)), (Datatypes.S k). split; [cbn; now rewrite Nat.add_succ_r|]. split; [cbn; now rewrite Nat.add_succ_r|]. split; [exact L'|constructor].
    - change (scoped (CBlock l) D) with (do _ <- scopeds l D; Some D) in S. destruct (scopeds l D) as [D1|] eqn:S1; [|discriminate]. cbn [obind] in S. injection S as <-.
      destruct (pbok l D D1 rho rho' k IH S1 L) as [p [j [P1 [P2 V]]]]. exists [SBlock p], rho, rho', j. rewrite !paste_block, P1, P2. split; [reflexivity|]. split; [reflexivity|]. split; [exact L|]. constructor; [now constructor|constructor].
    - change (scoped (CIf e l) D) with (if sub (reads e) D then do _ <- scopeds l D; Some D else None) in S. destruct (sub (reads e) D) eqn:Se; [|discriminate]. destruct (scopeds l D) as [D1|] eqn:S1; [|discriminate]. cbn [obind] in S. injection S as <-.
      destruct (link_sube _ _ _ e L Se) as [A B]. destruct (pbok l D D1 rho rho' k IH S1 L) as [p [j [P1 [P2 V]]]]. exists [SIf (sube rho e) p], rho, rho', j. rewrite !paste_if, P1, P2, A. split; [reflexivity|]. split; [reflexivity|]. split; [exact L|]. constructor; [now constructor|constructor].
    - change (scoped (CIfElse e l1 l2) D) with (if sub (reads e) D then do _ <- scopeds l1 D; do _ <- scopeds l2 D; Some D else None) in S. destruct (sub (reads e) D) eqn:Se; [|discriminate].
      destruct (scopeds l1 D) as [D1|] eqn:S1; [|discriminate]. cbn [obind] in S. destruct (scopeds l2 D) as [D2|] eqn:S2; [|discriminate]. cbn [obind] in S. injection S as <-.
      destruct (link_sube _ _ _ e L Se) as [A B]. destruct (pbok l1 D D1 rho rho' k IH1 S1 L) as [p [j [P1 [P2 V]]]]. destruct (pbok l2 D D2 rho rho' j IH2 S2 L) as [q [j2 [Q1 [Q2 V2]]]].
      exists [SIfElse (sube rho e) p q], rho, rho', j2. rewrite !paste_ifelse, P1, P2, Q1, Q2, A. split; [reflexivity|]. split; [reflexivity|]. split; [exact L|]. constructor; [now constructor|constructor].
    - change (scoped (CWhile e l) D) with (if sub (reads e) D then do _ <- scopeds l D; Some D else None) in S. destruct (sub (reads e) D) eqn:Se; [|discriminate]. destruct (scopeds l D) as [D1|] eqn:S1; [|discriminate]. cbn [obind] in S. injection S as <-.
      destruct (link_sube _ _ _ e L Se) as [A B]. destruct (pbok l D D1 rho rho' k IH S1 L) as [p [j [P1 [P2 V]]]]. exists [SWhile (sube rho e) p], rho, rho', j. rewrite !paste_while, P1, P2, A. split; [reflexivity|]. split; [reflexivity|]. split; [exact L|]. constructor; [now constructor|constructor].
    - injection S as <-. exists [SBreak], rho, rho', k. split; [reflexivity|]. split; [reflexivity|]. split; [exact L|]. constructor; constructor.
    - injection S as <-. exists [SStep], rho, rho', k. split; [reflexivity|]. split; [reflexivity|]. split; [exact L|]. constructor; constructor.
    - change (scoped (CInst fi fo b ai ao) D) with (if forallb (fun e => sub (reads e) D) ai && sub ao D && Nat.eqb (length fi) (length ai) && Nat.eqb (length fo) (length ao)
        then do _ <- scopeds b (fo ++ fi ++ D); Some D else None) in S.
      destruct (forallb (fun e => sub (reads e) D) ai && sub ao D && Nat.eqb (length fi) (length ai) && Nat.eqb (length fo) (length ao)) eqn:C; [|discriminate].
      apply andb_true_iff in C. destruct C as [C C4]. apply andb_true_iff in C. destruct C as [C C3]. apply andb_true_iff in C. destruct C as [C1 C2]. apply Nat.eqb_eq in C3, C4.
      destruct (scopeds b (fo ++ fi ++ D)) as [D1|] eqn:S1; [|discriminate]. cbn [obind] in S. injection S as <-. pose proof (sub_in _ _ C2) as Ao.
      destruct (inputs_ok D rho rho' L ai k C1) as [vi [ts [j [A1 [A2 [A3 [A4 A5]]]]]]].
      assert (Mo : map rho' ao = map th (map rho ao)) by (rewrite map_map; apply map_ext_in; intros x Hx; now apply L, Ao).
      assert (L' : link (fo ++ fi ++ D) (setl (setl rho fi vi) fo (map rho ao)) (setl (setl rho' fi (map th vi)) fo (map rho' ao))).
      { intros x Hx. assert (Lf : length fi = length vi) by congruence. assert (Lo : length fo = length (map rho ao)) by (rewrite map_length; exact C4).
        assert (E1 : In x fi \/ rho' x = th (rho x) \/ In x fo).
        { apply in_app_or in Hx. destruct Hx as [Hx|Hx]; [auto|]. apply in_app_or in Hx. destruct Hx as [Hx|Hx]; [auto|]. right. left. now apply L. }
        split.
        - destruct (in_dec Nat.eq_dec x fo) as [K|K].
          + pose proof (setl_in fo (map rho ao) (setl rho fi vi) x Lo K) as Hv. apply in_map_iff in Hv. destruct Hv as [y [Ey Hy]]. rewrite <- Ey. now apply L, Ao.
          + rewrite setl_out by exact K. destruct (in_dec Nat.eq_dec x fi) as [K2|K2]; [apply A3; now apply setl_in|]. rewrite setl_out by exact K2.
            apply in_app_or in Hx. destruct Hx as [Hx|Hx]; [contradiction|]. apply in_app_or in Hx. destruct Hx as [Hx|Hx]; [contradiction|]. now apply L.
        - rewrite Mo. apply setl_map; [|exact Lo]. destruct (in_dec Nat.eq_dec x fo) as [K|K]; [now left|]. right. apply setl_map; [|exact Lf]. destruct E1 as [E1|[E1|E1]]; [now left|now right|contradiction]. }
      destruct (pbok b _ D1 _ _ j IH S1 L') as [p [j2 [P1 [P2 V]]]]. exists (ts ++ [SBlock p]), rho, rho', j2. rewrite !paste_inst, A1, A2, P1, P2. split; [reflexivity|].
      split; [unfold ren; now rewrite map_app|]. split; [exact L|]. apply Forall_app. split; [exact A4|]. constructor; [now constructor|constructor].
  Qed.
End Paste.

(** * An instance runs as the circuitry on its own variables *)
Section Instance.
  Variables (ret : bool) (b : list cst) (vs : list nat) (N N' : nat) (rho : env) (D' : list nat).
  Hypothesis Sc : scopeds b vs = Some D'.
  Hypothesis LN : forall x, In x vs -> x < N.
  Hypothesis LN' : forall x, In x vs -> rho x < N'.
  Hypothesis Inj : forall x y, In x vs -> In y vs -> rho x = rho y -> x = y.
  Variables s t : store.
  Hypothesis A1 : forall x, In x vs -> t (rho x) = s x.
  Hypothesis A2 : forall k, t (N' + k) = s (N + k).
  Definition same (s' t' : store) : Prop := (forall x, In x vs -> t' (rho x) = s' x) /\ (forall y, y < N' -> (forall x, In x vs -> y <> rho x) -> t' y = t y).
  Theorem instance_runs :
    (forall o s', exec ret (pasted N b) s o s' -> exists t', exec ret (fst (pbody b rho N')) t o t' /\ same s' t') /\
    (forall o t', exec ret (fst (pbody b rho N')) t o t' -> exists s', exec ret (pasted N b) s o s' /\ same s' t').
  Proof.
    set (th := fun x => if Nat.ltb x N then rho x else N' + (x - N)).
    set (W := fun x => In x vs \/ N <= x).
    assert (Th1 : forall x, In x vs -> th x = rho x) by (intros x Hx; unfold th; now rewrite (proj2 (Nat.ltb_lt x N) (LN x Hx))).
    assert (Th2 : forall k, th (N + k) = N' + k) by (intros k; unfold th; rewrite (proj2 (Nat.ltb_ge (N + k) N)) by lia; f_equal; lia).
    assert (WN : forall k, N <= k -> W k) by (intros k H; now right).
    assert (TI : forall x y, W x -> W y -> th x = th y -> x = y).
    { intros x y [Hx|Hx] [Hy|Hy] E.
      - rewrite !Th1 in E by assumption. now apply Inj.
      - rewrite (Th1 x Hx) in E. replace y with (N + (y - N)) in E by lia. rewrite Th2 in E. specialize (LN' x Hx). lia.
      - rewrite (Th1 y Hy) in E. replace x with (N + (x - N)) in E by lia. rewrite Th2 in E. specialize (LN' y Hy). lia.
      - replace y with (N + (y - N)) in E by lia. replace x with (N + (x - N)) in E by lia. rewrite !Th2 in E. lia. }
    assert (Lk : link th W vs (fun x => x) rho) by (intros x Hx; split; [now left|now rewrite Th1]).
    assert (F : Forall (pok th W N N') b) by (apply Forall_forall; intros st _; now apply paste_ren).
    destruct (pbok th W N N' b _ _ _ _ 0 F Sc Lk) as [p [j [P1 [P2 V]]]]. rewrite !Nat.add_0_r in P1, P2. unfold pasted. rewrite P1, P2. cbn [fst].
    assert (AA : agree th W s t).
    { intros x [Hx|Hx]; [rewrite Th1 by exact Hx; now apply A1|]. replace x with (N + (x - N)) by lia. rewrite Th2. apply A2. }
    assert (Sm : forall s' t', agree th W s' t' -> frame th W t t' -> same s' t').
    { intros s' t' E2 E3. split.
      - intros x Hx. rewrite <- (Th1 x Hx). apply E2. now left.
      - intros y Hy Ny. apply E3. intros x [Hx|Hx]; [rewrite Th1 by exact Hx; now apply Ny|]. replace x with (N + (x - N)) by lia. rewrite Th2. lia. }
    split.
    - intros o s' E. destruct (proj2 (exec_ren ret th W TI) _ _ _ _ E V t AA) as [t' [E1 [E2 E3]]]. exists t'. split; [exact E1|now apply Sm].
    - intros o t' E. destruct (proj2 (exec_ren_inv ret th W TI) _ _ _ _ E p eq_refl V s AA) as [s' [E1 [E2 E3]]]. exists s'. split; [exact E1|now apply Sm].
  Qed.
End Instance.
Lemma setl_act act xs : forall rho x, In x xs \/ rho x = act x -> setl rho xs (map act xs) x = act x.
Proof.
  induction xs as [|y xs IH]; intros rho x H; [destruct H as [[]|H]; exact H|]. cbn [map setl]. apply IH.
  destruct (in_dec Nat.eq_dec x xs) as [K|K]; [now left|]. right. unfold setv. destruct (Nat.eqb_spec x y) as [ ->|N]; [reflexivity|]. destruct H as [[E|H]|H]; [congruence|contradiction|exact H].
Qed.
