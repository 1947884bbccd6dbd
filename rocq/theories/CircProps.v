(** C42: instantiation of circuitries. *)
From Coq Require Import List Bool Arith ZArith Lia.
Import ListNotations.
From Verif Require Import FsmModel FsmEmit FsmLayout FsmGather FsmRegion FsmRun FsmBig FsmTotal FsmTotalProps CircModel CircProofs CircRename CircPlain.

(** ** An instance is the body of the circuitry with its inputs and outputs replaced *)
(** [A]: variables of the algorithm, below [m]. Names are in scope, inputs, outputs and variables of circuitries are not called as variables of the algorithm, variables are declared before their name
    is used, and arguments are expressions only where nothing was assigned before in the block. Partial: these conditions. *)
Theorem C42_paste_partial : forall ret A m n l U D,
  (forall x, In x A -> x < m) -> forallb (small m) l = true -> m <= n -> scopeds l A = Some D -> plains A l [] = Some U ->
  exists p, elaborate n l = Some p /\
    (forall s o s', exec ret p s o s' -> exists s'', exec ret (pasted n l) s o s'' /\ forall x, s'' x = s' x) /\
    (forall s o s', exec ret (pasted n l) s o s' -> exists s'', exec ret p s o s'' /\ forall x, s'' x = s' x).
Proof.
  intros ret A m n l U D Am B L S P. destruct (plain_paste A m ret n l U D P S B L) as [p [E [Q1 Q2]]]. exists p. split; [exact E|]. split; intros s o s' H.
  - destruct (Q1 _ _ _ H s (eqs_refl s)) as [t [T1 T2]]. exists t. split; [exact T1|]. intros x. symmetry. apply T2.
  - destruct (Q2 _ _ _ H s (eqs_refl s)) as [t [T1 T2]]. exists t. split; [exact T1|]. intros x. symmetry. apply T2.
Qed.

(** The finer conditions, along the elaboration. *)
Theorem C42_safe_partial : forall ret m n l p, m <= n -> forallb (small m) l = true -> safes l [] n [] = true -> elaborate n l = Some p ->
  (forall s o s', exec ret p s o s' -> exists s'', exec ret (pasted n l) s o s'' /\ forall x, s'' x = s' x) /\
  (forall s o s', exec ret (pasted n l) s o s' -> exists s'', exec ret p s o s'' /\ forall x, s'' x = s' x).
Proof.
  intros ret m n l p L B S E. destruct (elaborate_paste ret m n l p L B S E) as [Q1 Q2]. split; intros s o s' H.
  - destruct (Q1 _ _ _ H s (eqs_refl s)) as [t [T1 T2]]. exists t. split; [exact T1|]. intros x. symmetry. apply T2.
  - destruct (Q2 _ _ _ H s (eqs_refl s)) as [t [T1 T2]]. exists t. split; [exact T1|]. intros x. symmetry. apply T2.
Qed.

(** A circuitry with a local variable, a loop and an instance of another circuitry: variables 0, 1, 2 of the algorithm. *)
Definition addz := EB Z.add.
Definition double : expr -> nat -> cst := fun e y => CInst [20] [21] [CAssign 21 (addz (EV 20) (EV 20))] [e] [y].
Definition circ (a : expr) (x y : nat) : cst :=
  CInst [10; 11] [11; 12]
    [ CVar 13 (Some (EV 10));
      CWhile (EV 13) [ CAssign 11 (addz (EV 11) (EC 1)); CStep; CAssign 13 (addz (EV 13) (EC (-1))); CIf (EV 12) [CBreak] ];
      double (addz (EV 11) (EV 13)) 12 ] [a; EV x] [x; y].
Definition p42 : list cst :=
  [ CIf (EV 2) [ CAssign 0 (EC 3) ]; circ (addz (EV 0) (EV 1)) 1 2; CAssign 0 (EV 2); circ (EV 0) 2 1 ].
Example C42_paste_ex : (forall x, In x [0; 1; 2] -> x < 30) /\ forallb (small 30) p42 = true /\ scopeds p42 [0; 1; 2] = Some [0; 1; 2] /\ plains [0; 1; 2] p42 [] = Some [] /\
  safes p42 [] 30 [] = true /\ forallb (cbrk false) p42 = true.
Proof. split; [intros x H; cbn in H; lia|]. repeat split. Qed.

(** ** To the state machine *)
Theorem C42_machine_partial : forall unit deps0 A m n l U D,
  (forall x, In x A -> x < m) -> forallb (small m) l = true -> m <= n -> scopeds l A = Some D -> plains A l [] = Some U -> forallb (cbrk false) l = true ->
  exists p F M, elaborate n l = Some p /\ (forall fuel, F <= fuel -> compile fuel unit deps0 p = Some M) /\
    (forall s s', exec false (pasted n l) s Normal s' -> exists k s'', runs M closed closed k s = Some (s'', 0) /\ forall x, s'' x = s' x) /\
    (forall k s s', runs M closed closed k s = Some (s', 0) -> exists s'', exec false (pasted n l) s Normal s'' /\ forall x, s'' x = s' x).
Proof.
  intros unit deps0 A m n l U D Am B L S P K. destruct (C42_paste_partial false A m n l U D Am B L S P) as [p [E [Q1 Q2]]].
  destruct (elaborate_good n l p K E) as [G1 [G2 [G3 G4]]].
  destruct (C41_runs_partial unit deps0 p G4 ltac:(rewrite G3; constructor) G1 G2) as [F [M [H1 H2]]]. exists p, F, M. split; [exact E|]. split; [exact H1|]. split.
  - intros s s' X. destruct (Q2 _ _ _ X) as [s'' [Y1 Y2]]. apply H2 in Y1. destruct Y1 as [k Y1]. exists k, s''. now split.
  - intros k s s' X. assert (Y : exec false p s Normal s') by (apply H2; now exists k). exact (Q1 _ _ _ Y).
Qed.

(** ** An instance runs as the circuitry alone *)
(** [act]: the variables given to the inputs and outputs; an inout is in both. The circuitry alone is an algorithm whose variables are the inputs and outputs. *)
Theorem C42_function_partial : forall ret fi fo b act N N' U U' D,
  scopeds b (fo ++ fi) = Some D ->
  plains (fo ++ fi) b [] = Some U -> plains (map act (fo ++ fi)) b [] = Some U' -> out (map act (fo ++ fi)) (fi ++ fo) = true ->
  forallb (small N) b = true -> forallb (small N') b = true -> (forall x, In x (fo ++ fi) -> x < N /\ x < N' /\ act x < N') ->
  (forall x y, In x (fo ++ fi) -> In y (fo ++ fi) -> act x = act y -> x = y) ->
  exists q p, elaborate N b = Some q /\ elaborate N' [CInst fi fo b (map EV (map act fi)) (map act fo)] = Some p /\
  forall s t, (forall x, In x (fo ++ fi) -> t (act x) = s x) -> (forall k, t (N' + k) = s (N + k)) ->
  let same := fun s' t' : store => (forall x, In x (fo ++ fi) -> t' (act x) = s' x) /\ (forall y, y < N' -> (forall x, In x (fo ++ fi) -> y <> act x) -> t' y = t y) in
  (forall o s', exec ret q s o s' -> exists t', exec ret p t o t' /\ same s' t') /\
  (forall o t', exec ret p t o t' -> exists s', exec ret q s o s' /\ same s' t').
Proof.
  intros ret fi fo b act N N' U U' D S P P' O B B' Lt Inj.
  destruct (plain_paste (fo ++ fi) N ret N b U D P S B (le_n N)) as [q [Eq [Q1 Q2]]]. exists q.
  set (A := map act (fo ++ fi)) in *. set (ci := CInst fi fo b (map EV (map act fi)) (map act fo)).
  assert (SA : scopeds b (fo ++ fi ++ A) <> None).
  { assert (Mono : forall st D1 D2 D', incl D1 D2 -> scoped st D1 = Some D' -> exists D'', scoped st D2 = Some D'' /\ incl D' D'').
    { assert (Sub : forall l D1 D2, incl D1 D2 -> sub l D1 = true -> sub l D2 = true).
      { intros l D1 D2 I H. unfold sub in *. rewrite forallb_forall in *. intros x Hx. apply memb_in, I, memb_in, H, Hx. }
      assert (Cn : forall (x : nat) D1 D2, incl D1 D2 -> incl (x :: D1) (x :: D2)) by (intros x D1 D2 I y [ ->|Hy]; [now left|right; now apply I]).
      assert (Ml : forall l, Forall (fun st => forall D1 D2 D', incl D1 D2 -> scoped st D1 = Some D' -> exists D'', scoped st D2 = Some D'' /\ incl D' D'') l ->
        forall D1 D2 D', incl D1 D2 -> scopeds l D1 = Some D' -> exists D'', scopeds l D2 = Some D'' /\ incl D' D'').
      { induction 1 as [|x l Hx _ IH]; intros D1 D2 D' I H; [injection H as <-; now exists D2|].
        change (scopeds (x :: l) D1) with (do D1 <- scoped x D1; scopeds l D1) in H. change (scopeds (x :: l) D2) with (do D1 <- scoped x D2; scopeds l D1).
        destruct (scoped x D1) as [E1|] eqn:X1; [|discriminate]. cbn [obind] in H. destruct (Hx _ _ _ I X1) as [E2 [X2 I2]]. rewrite X2. cbn [obind]. exact (IH _ _ _ I2 H). }
      induction st as [x e|x e|l IH|e l IH|e l1 l2 IH1 IH2|e l IH| | |fi0 fo0 b0 ai ao IH] using cst_ind'; intros D1 D2 D' I H.
      - cbn [scoped] in *. destruct (sub (x :: reads e) D1) eqn:X; [|discriminate]. rewrite (Sub _ _ _ I X). injection H as <-. now exists D2.
      - destruct e as [e|]; cbn [scoped] in *.
        + destruct (sub (reads e) (x :: D1)) eqn:X; [|discriminate]. rewrite (Sub _ _ _ (Cn x _ _ I) X). injection H as <-. exists (x :: D2). split; [reflexivity|now apply Cn].
        + injection H as <-. exists (x :: D2). split; [reflexivity|now apply Cn].
      - change (scoped (CBlock l) D1) with (do _ <- scopeds l D1; Some D1) in H. change (scoped (CBlock l) D2) with (do _ <- scopeds l D2; Some D2).
        destruct (scopeds l D1) as [E1|] eqn:X1; [|discriminate]. cbn [obind] in H. injection H as <-. destruct (Ml l IH _ _ _ I X1) as [E2 [X2 _]]. rewrite X2. now exists D2.
      - change (scoped (CIf e l) D1) with (if sub (reads e) D1 then do _ <- scopeds l D1; Some D1 else None) in H. change (scoped (CIf e l) D2) with (if sub (reads e) D2 then do _ <- scopeds l D2; Some D2 else None).
        destruct (sub (reads e) D1) eqn:X; [|discriminate]. rewrite (Sub _ _ _ I X).
        destruct (scopeds l D1) as [E1|] eqn:X1; [|discriminate]. cbn [obind] in H. injection H as <-. destruct (Ml l IH _ _ _ I X1) as [E2 [X2 _]]. rewrite X2. now exists D2.
      - change (scoped (CIfElse e l1 l2) D1) with (if sub (reads e) D1 then do _ <- scopeds l1 D1; do _ <- scopeds l2 D1; Some D1 else None) in H.
        change (scoped (CIfElse e l1 l2) D2) with (if sub (reads e) D2 then do _ <- scopeds l1 D2; do _ <- scopeds l2 D2; Some D2 else None).
        destruct (sub (reads e) D1) eqn:X; [|discriminate]. rewrite (Sub _ _ _ I X).
        destruct (scopeds l1 D1) as [E1|] eqn:X1; [|discriminate]. cbn [obind] in H. destruct (scopeds l2 D1) as [F1|] eqn:Y1; [|discriminate]. cbn [obind] in H. injection H as <-.
        destruct (Ml l1 IH1 _ _ _ I X1) as [E2 [X2 _]]. destruct (Ml l2 IH2 _ _ _ I Y1) as [F2 [Y2 _]]. rewrite X2. cbn [obind]. rewrite Y2. now exists D2.
      - change (scoped (CWhile e l) D1) with (if sub (reads e) D1 then do _ <- scopeds l D1; Some D1 else None) in H. change (scoped (CWhile e l) D2) with (if sub (reads e) D2 then do _ <- scopeds l D2; Some D2 else None).
        destruct (sub (reads e) D1) eqn:X; [|discriminate]. rewrite (Sub _ _ _ I X).
        destruct (scopeds l D1) as [E1|] eqn:X1; [|discriminate]. cbn [obind] in H. injection H as <-. destruct (Ml l IH _ _ _ I X1) as [E2 [X2 _]]. rewrite X2. now exists D2.
      - injection H as <-. now exists D2.
      - injection H as <-. now exists D2.
      - change (scoped (CInst fi0 fo0 b0 ai ao) D1) with (if forallb (fun e => sub (reads e) D1) ai && sub ao D1 && Nat.eqb (length fi0) (length ai) && Nat.eqb (length fo0) (length ao)
          then do _ <- scopeds b0 (fo0 ++ fi0 ++ D1); Some D1 else None) in H.
        change (scoped (CInst fi0 fo0 b0 ai ao) D2) with (if forallb (fun e => sub (reads e) D2) ai && sub ao D2 && Nat.eqb (length fi0) (length ai) && Nat.eqb (length fo0) (length ao)
          then do _ <- scopeds b0 (fo0 ++ fi0 ++ D2); Some D2 else None).
        destruct (forallb (fun e => sub (reads e) D1) ai) eqn:X1; [|discriminate]. destruct (sub ao D1) eqn:X2; [|discriminate]. cbn [andb] in H.
        assert (Y1 : forallb (fun e => sub (reads e) D2) ai = true) by (rewrite forallb_forall in *; intros e He; eapply Sub; [exact I|now apply X1]).
        rewrite Y1, (Sub _ _ _ I X2). cbn [andb]. destruct (Nat.eqb (length fi0) (length ai) && Nat.eqb (length fo0) (length ao)); [|discriminate].
        destruct (scopeds b0 (fo0 ++ fi0 ++ D1)) as [E1|] eqn:Z1; [|discriminate]. cbn [obind] in H. injection H as <-.
        destruct (Ml b0 IH _ (fo0 ++ fi0 ++ D2) _ ltac:(apply incl_app_app; [apply incl_refl|]; apply incl_app_app; [apply incl_refl|exact I]) Z1) as [E2 [Z2 _]]. rewrite Z2. now exists D2. }
    assert (Ml : forall l D1 D2 D', incl D1 D2 -> scopeds l D1 = Some D' -> scopeds l D2 <> None).
    { induction l as [|x l IH]; intros D1 D2 D' I H; [discriminate|]. change (scopeds (x :: l) D1) with (do D1 <- scoped x D1; scopeds l D1) in H. change (scopeds (x :: l) D2) with (do D1 <- scoped x D2; scopeds l D1).
      destruct (scoped x D1) as [E1|] eqn:X1; [|discriminate]. cbn [obind] in H. destruct (Mono _ _ _ _ I X1) as [E2 [X2 I2]]. rewrite X2. cbn [obind]. exact (IH _ _ _ I2 H). }
    apply (Ml b (fo ++ fi) (fo ++ fi ++ A) D); [|exact S]. rewrite app_assoc. apply incl_appl, incl_refl. }
  destruct (scopeds b (fo ++ fi ++ A)) as [DA|] eqn:SB; [|congruence].
  assert (Sc : scopeds [ci] A = Some A).
  { assert (Wi : forallb (fun e => sub (reads e) A) (map EV (map act fi)) = true).
    { apply forallb_forall. intros e He. apply in_map_iff in He. destruct He as [v [<- Hv]]. cbn. rewrite andb_true_r. apply memb_in. unfold A. rewrite map_app. apply in_or_app. now right. }
    assert (Wo : sub (map act fo) A = true) by (apply forallb_forall; intros v Hv; apply memb_in; unfold A; rewrite map_app; apply in_or_app; now left).
    change (scopeds [ci] A) with (do D1 <- (if forallb (fun e => sub (reads e) A) (map EV (map act fi)) && sub (map act fo) A && Nat.eqb (length fi) (length (map EV (map act fi))) && Nat.eqb (length fo) (length (map act fo))
          then do _ <- scopeds b (fo ++ fi ++ A); Some A else None); Some D1).
    rewrite Wi, Wo, !map_length, !Nat.eqb_refl, SB. reflexivity. }
  assert (Pl : plains A [ci] [] = Some []).
  { change (plains A [ci] []) with (do U1 <- (if out A (fi ++ fo) && (forallb is_id (map EV (map act fi)) || true) then do _ <- plains A b []; Some (@nil nat) else None); Some U1). rewrite O, P', orb_true_r. reflexivity. }
  assert (Bc : forallb (small N') [ci] = true).
  { cbn [forallb small ci]. rewrite andb_true_r, B', andb_true_r. apply andb_true_iff. split.
    - apply forallb_forall. intros x Hx. apply Nat.ltb_lt. apply in_app_or in Hx. destruct Hx as [Hx|Hx]; [apply Lt; apply in_or_app; now right|]. apply in_app_or in Hx. destruct Hx as [Hx|Hx]; [apply Lt; apply in_or_app; now left|].
      apply in_map_iff in Hx. destruct Hx as [y [<- Hy]]. apply Lt. apply in_or_app. now left.
    - apply forallb_forall. intros e He. apply in_map_iff in He. destruct He as [v [<- Hv]]. cbn. rewrite andb_true_r. apply Nat.ltb_lt. apply in_map_iff in Hv. destruct Hv as [y [<- Hy]]. apply Lt. apply in_or_app. now right. }
  destruct (plain_paste A N' ret N' [ci] [] A Pl Sc Bc (le_n N')) as [p [Ep [R1 R2]]]. exists p. split; [exact Eq|]. split; [exact Ep|]. intros s t A1 A2.
  set (rho := setl (setl (fun x => x) fi (map act fi)) fo (map act fo)).
  assert (Rh : forall x, In x (fo ++ fi) -> rho x = act x).
  { intros x Hx. unfold rho. apply setl_act. apply in_app_or in Hx. destruct Hx as [Hx|Hx]; [now left|]. right. apply setl_act. now left. }
  assert (Inp : forall xs n, inputs (fun x => x) n (map EV xs) = (xs, [], n)) by (induction xs as [|x xs IH]; intros n; cbn; [reflexivity|now rewrite IH]).
  assert (Ec : pasted N' [ci] = [SBlock (fst (pbody b rho N'))]).
  { unfold pasted, pbody at 1. rewrite pastes_cons. unfold ci. rewrite paste_inst, Inp, map_id. fold rho. destruct (pbody b rho N') as [bb n2]. reflexivity. }
  rewrite Ec in R1, R2.
  destruct (instance_runs ret b (fo ++ fi) N N' rho D S ltac:(intros x Hx; now apply Lt) ltac:(intros x Hx; rewrite (Rh x Hx); now apply Lt)
    ltac:(intros x y Hx Hy; rewrite (Rh x Hx), (Rh y Hy); now apply Inj) s t ltac:(intros x Hx; rewrite (Rh x Hx); now apply A1) A2) as [I1 I2].
  assert (Sm : forall s' t', same (fo ++ fi) N' rho t s' t' -> forall s1 t1, eqs s' s1 -> eqs t' t1 ->
    (forall x, In x (fo ++ fi) -> t1 (act x) = s1 x) /\ (forall y, y < N' -> (forall x, In x (fo ++ fi) -> y <> act x) -> t1 y = t y)).
  { intros s' t' [X1 X2] s1 t1 Es Et. split.
    - intros x Hx. rewrite <- (Es x), <- (Et (act x)), <- (Rh x Hx). now apply X1.
    - intros y Hy Ny. rewrite <- (Et y). apply X2; [exact Hy|]. intros x Hx. rewrite (Rh x Hx). now apply Ny. }
  cbn zeta. split.
  - intros o s' X. destruct (Q1 _ _ _ X s (eqs_refl s)) as [s1 [X1 E1]]. destruct (I1 o s1 X1) as [t1 [X2 K]].
    destruct (R2 t o t1 ltac:(apply exec_one; now constructor) t (eqs_refl t)) as [t' [X3 E3]]. exists t'. split; [exact X3|]. apply (Sm s1 t1 K); [now apply eqs_sym|exact E3].
  - intros o t' X. destruct (R1 _ _ _ X t (eqs_refl t)) as [t1 [X1 E1]]. apply exec_one in X1. inversion X1 as [|? ? ? ? H1| | | | | | | | | |]; subst. destruct (I2 o t1 H1) as [s1 [X2 K]].
    destruct (Q2 _ _ _ X2 s (eqs_refl s)) as [s' [X3 E3]]. exists s'. split; [exact X3|]. apply (Sm s1 t1 K); [exact E3|now apply eqs_sym].
Qed.
Definition b42 : list cst := [ CVar 13 (Some (EV 10)); CWhile (EV 13) [ CAssign 11 (addz (EV 11) (EC 1)); CStep; CAssign 13 (addz (EV 13) (EC (-1))) ]; double (addz (EV 11) (EV 13)) 12 ].
Example C42_function_ex : let fi := [10; 11] in let fo := [11; 12] in let act := fun x => x - 10 in
  scopeds b42 (fo ++ fi) = Some [13; 11; 12; 10; 11] /\ plains (fo ++ fi) b42 [] = Some [] /\ plains (map act (fo ++ fi)) b42 [] = Some [] /\ out (map act (fo ++ fi)) (fi ++ fo) = true /\
  forallb (small 40) b42 = true /\ (forall x, In x (fo ++ fi) -> x < 40 /\ act x < 40) /\ (forall x y, In x (fo ++ fi) -> In y (fo ++ fi) -> act x = act y -> x = y).
Proof. cbn zeta. repeat split; try reflexivity; intros; cbn in *; lia. Qed.

(** ** Programs for which this does not hold *)
Ltac run1 := econstructor; [constructor|].
Ltac runb := econstructor; [constructor; repeat run1; constructor|].
Ltac inv1 H := inversion H; clear H; subst.
Ltac invs := repeat match goal with
  | H : exec _ (_ :: _) _ _ _ |- _ => inv1 H
  | H : exec _ [] _ _ _ |- _ => inv1 H
  | H : exec1 _ (SAssign _ _) _ _ _ |- _ => inv1 H
  | H : exec1 _ (SBlock _) _ _ _ |- _ => inv1 H
  end.
(** [a = a + 1; (o) = c(a + 2);]: the argument is computed with the value of [a] before the assignment. *)
Theorem C42_hoist_refuted : exists l n p s s' x, elaborate n l = Some p /\ exec false p s Normal s' /\
  forall s'', exec false (pasted n l) s Normal s'' -> s'' x <> s' x.
Proof.
  exists [ CAssign 0 (addz (EV 0) (EC 1)); CInst [10] [11] [ CAssign 11 (EV 10) ] [ addz (EV 0) (EC 2) ] [1] ], 20,
    [ SAssign 20 (addz (EV 0) (EC 2)); SAssign 0 (addz (EV 0) (EC 1)); SBlock [ SAssign 1 (EV 20) ] ], (fun _ => 0%Z).
  eexists. exists 1. split; [reflexivity|]. split; [run1; run1; runb; constructor|].
  intros s'' H. cbn in H. invs. vm_compute. discriminate.
Qed.

(** [circuitry inner(input p, output q) { q = p; }], [circuitry outer(input x, input y, output r) { (r) = inner(x); }], and in an algorithm with variables [y], [z], [o]: [(o) = outer(y, z)].
    [inner] receives [z]: 0 is [y], 1 is [z], 2 is [o], and the inputs of [outer] are 10 and 0. *)
Theorem C42_capture_refuted : exists l n p s s' x, elaborate n l = Some p /\ exec false p s Normal s' /\
  forall s'', exec false (pasted n l) s Normal s'' -> s'' x <> s' x.
Proof.
  exists [ CInst [10; 0] [11] [ CInst [20] [21] [ CAssign 21 (EV 20) ] [ EV 10 ] [ 11 ] ] [ EV 0; EV 1 ] [ 2 ] ], 30,
    [ SBlock [ SBlock [ SAssign 2 (EV 1) ] ] ], (fun x => if Nat.eqb x 0 then 5%Z else 7%Z).
  eexists. exists 2. split; [reflexivity|]. split; [econstructor; [constructor; runb; constructor|constructor]|].
  intros s'' H. cbn in H. invs. vm_compute. discriminate.
Qed.

(** [o = a; uint8 a = 3;]: the first [a] is the variable declared after. *)
Theorem C42_declaration_refuted : exists l n p s s' x, elaborate n l = Some p /\ exec false p s Normal s' /\
  forall s'', exec false (pasted n l) s Normal s'' -> s'' x <> s' x.
Proof.
  exists [ CBlock [ CAssign 1 (EV 0); CVar 0 (Some (EC 3)) ] ], 30, [ SBlock [ SAssign 1 (EV 30); SAssign 30 (EC 3) ] ], (fun x => if Nat.eqb x 0 then 5%Z else 7%Z).
  eexists. exists 1. split; [reflexivity|]. split; [runb; constructor|].
  intros s'' H. cbn in H. invs. vm_compute. discriminate.
Qed.

(** [circuitry swap(input x, output u, output v) { u = 1; v = x; }] with [(a, b) = swap(a)]: the circuitry alone gives to [v] the value of [x]. *)
Theorem C42_alias_refuted : exists fi fo b ai ao n p q, elaborate n b = Some q /\ elaborate n [CInst fi fo b ai ao] = Some p /\ plains ao [CInst fi fo b ai ao] [] = Some [] /\
  forall t s, (forall i, t (nth i ao n) = s (nth i fo n)) -> t (nth 0 ao n) = 5%Z -> s (nth 0 fi n) = 5%Z -> forall s' t', exec false q s Normal s' -> exec false p t Normal t' ->
  s' (nth 1 fo n) = 5%Z /\ t' (nth 1 ao n) = 1%Z.
Proof.
  exists [10], [11; 12], [ CAssign 11 (EC 1); CAssign 12 (EV 10) ], [ EV 0 ], [ 0; 1 ], 30, [ SBlock [ SAssign 0 (EC 1); SAssign 1 (EV 0) ] ], [ SAssign 11 (EC 1); SAssign 12 (EV 10) ].
  split; [reflexivity|]. split; [reflexivity|]. split; [reflexivity|]. intros t s A B C s' t' H K. invs. cbn in *. unfold upd. cbn. now split.
Qed.

Print Assumptions C42_paste_partial.
Print Assumptions C42_safe_partial.
Print Assumptions C42_machine_partial.
Print Assumptions C42_function_partial.
Print Assumptions C42_hoist_refuted.
Print Assumptions C42_capture_refuted.
Print Assumptions C42_declaration_refuted.
Print Assumptions C42_alias_refuted.
