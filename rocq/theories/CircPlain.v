(** Conditions on the source under which circuitries are pasted; compiled state machines. *)
From Coq Require Import List Bool Arith ZArith Lia.
Import ListNotations.
From Verif Require Import FsmModel FsmBig CircModel CircProofs CircRename.

(** * Conditions on the source *)
(** [A]: variables of the algorithm; [U]: names used by the assignments of the current block. The names of the inputs, outputs and local variables of circuitries are not names of variables of the
    algorithm, a variable is declared before its name is used in the block, and an expression is given as argument only if nothing was assigned before in the block. *)
Definition nil_ (U : list nat) : bool := match U with [] => true | _ => false end.
Definition out (A l : list nat) : bool := forallb (fun x => negb (memb x A)) l.
Fixpoint plain (A : list nat) (st : cst) (U : list nat) {struct st} : option (list nat) :=
  let plains := (fix plains (l : list cst) (U : list nat) : option (list nat) :=
    match l with
    | [] => Some U
    | x :: l' => do U1 <- plain A x U; plains l' U1
    end) in
  match st with
  | CAssign x e => Some (x :: reads e ++ U)
  | CVar x e => if out (U ++ A) [x] then Some (match e with Some e => x :: reads e ++ U | None => U end) else None
  | CBlock l => do _ <- plains l []; Some []
  | CIf _ l => do _ <- plains l []; Some []
  | CIfElse _ l1 l2 => do _ <- plains l1 []; do _ <- plains l2 []; Some []
  | CWhile _ l => do _ <- plains l []; Some []
  | CBreak | CStep => Some []
  | CInst fi fo b ai ao => if out A (fi ++ fo) && (forallb is_id ai || nil_ U) then do _ <- plains b []; Some [] else None
  end.
Definition plains (A : list nat) : list cst -> list nat -> option (list nat) :=
  fix plains (l : list cst) (U : list nat) : option (list nat) :=
    match l with
    | [] => Some U
    | x :: l' => do U1 <- plain A x U; plains l' U1
    end.
Lemma out_in A l : out A l = true -> forall x, In x l -> ~ In x A.
Proof. intros H x Hx. unfold out in H. rewrite forallb_forall in H. now apply memb_nin, H. Qed.

Section Plain.
  Variables (A : list nat) (m : nat).
  Hypothesis Am : forall x, In x A -> x < m.
  Definition top (x : nat) : Prop := In x A \/ m <= x.
  Definition pinv (r : rules) (D : list nat) : Prop := (forall k v, In (k, v) r -> ~ In k A /\ k < m) /\ (forall x, In x D -> top (tr r x)).
  Definition pseg (g : seg) (U : list nat) : Prop := (forall x e y, In (x, e) g -> In y (x :: reads e) -> y < m -> In y U) /\ (U = [] -> g = []).
  Lemma top_tr r D x : pinv r D -> top x -> tr r x = x.
  Proof. intros [P1 _] T. unfold tr. destruct (assoc x r) as [v|] eqn:E; [|reflexivity]. apply assoc_In in E. apply P1 in E. destruct T; [tauto|lia]. Qed.
  Lemma pseg_nil U : pseg [] U. Proof. split; [intros x e y []|reflexivity]. Qed.
  Definition plok (st : cst) : Prop := forall D D' U U' r n g, plain A st U = Some U' -> scoped st D = Some D' -> small m st = true -> m <= n -> pinv r D -> pseg g U ->
    exists o r' n' g', elab st r n g = Some (o, r', n', g') /\ safe st r n g = true /\ n <= n' /\ pinv r' D' /\ pseg g' U'.
  Definition plokl (l : list cst) : Prop := forall D D' U U' r n g, plains A l U = Some U' -> scopeds l D = Some D' -> forallb (small m) l = true -> m <= n -> pinv r D -> pseg g U ->
    exists o r' n' g', elabs l r n g = Some (o, r', n', g') /\ safes l r n g = true /\ n <= n' /\ pinv r' D' /\ pseg g' U'.
  Lemma plokl_of l : Forall plok l -> plokl l.
  Proof.
    induction 1 as [|x l Hx _ IH]; intros D D' U U' r n g P S B L I G.
    - cbn in P, S. injection P as <-. injection S as <-. exists [], r, n, g. split; [reflexivity|]. split; [reflexivity|]. split; [lia|]. now split.
    - change (plains A (x :: l) U) with (do U1 <- plain A x U; plains A l U1) in P. change (scopeds (x :: l) D) with (do D1 <- scoped x D; scopeds l D1) in S.
      destruct (plain A x U) as [U1|] eqn:P1; [|discriminate]. cbn [obind] in P. destruct (scoped x D) as [D1|] eqn:S1; [|discriminate]. cbn [obind] in S.
      cbn [forallb] in B. apply andb_true_iff in B. destruct B as [B1 B2].
      destruct (Hx _ _ _ _ r n g P1 S1 B1 L I G) as [o1 [r1 [n1 [g1 [E1 [F1 [L1 [I1 G1]]]]]]]]. destruct (IH _ _ _ _ r1 n1 g1 P S B2 ltac:(lia) I1 G1) as [o2 [r2 [n2 [g2 [E2 [F2 [L2 [I2 G2]]]]]]]].
      exists (o1 ++ o2), r2, n2, g2. rewrite elabs_cons, safes_cons, E1. cbn [obind]. rewrite E2, F1, F2. split; [reflexivity|]. split; [reflexivity|]. split; [lia|now split].
  Qed.
  Lemma plb l D D' U' r n : Forall plok l -> plains A l [] = Some U' -> scopeds l D = Some D' -> forallb (small m) l = true -> m <= n -> pinv r D ->
    exists b n', ebody l r n = Some (b, n') /\ safes l r n [] = true /\ n <= n'.
  Proof.
    intros H P S B L I. destruct (plokl_of _ H _ _ _ _ r n [] P S B L I (pseg_nil [])) as [o [r' [n' [g' [E [F [L' _]]]]]]]. exists (o ++ flush r' g'), n'. unfold ebody. rewrite E. cbn [obind]. now split.
  Qed.
  Lemma idents_len r ai : forall n vi ts n1, idents r n ai = (vi, ts, n1) -> length vi = length ai /\ n <= n1.
  Proof.
    induction ai as [|e ai IH]; intros n vi ts n1 E; [injection E as <- <- <-; split; [reflexivity|lia]|].
    destruct e; cbn [idents] in E; [destruct (idents r (S n) ai) as [[vs ts'] n'] eqn:E1|destruct (idents r n ai) as [[vs ts'] n'] eqn:E1|destruct (idents r (S n) ai) as [[vs ts'] n'] eqn:E1|destruct (idents r (S n) ai) as [[vs ts'] n'] eqn:E1];
      injection E as <- <- <-; apply IH in E1; cbn [length]; destruct E1; split; lia.
  Qed.
  Lemma idents_top r D ai : pinv r D -> forallb (fun e => sub (reads e) D) ai = true -> forall n vi ts n1, m <= n -> idents r n ai = (vi, ts, n1) -> forall v, In v vi -> top v.
  Proof.
    intros I. induction ai as [|e ai IH]; intros S n vi ts n1 L E v Hv; [injection E as <- <- <-; destruct Hv|]. cbn [forallb] in S. apply andb_true_iff in S. destruct S as [S1 S2].
    destruct e; cbn [idents] in E; [destruct (idents r (Datatypes.S n) ai) as [[vs ts'] n'] eqn:E1|destruct (idents r n ai) as [[vs ts'] n'] eqn:E1|destruct (idents r (Datatypes.S n) ai) as [[vs ts'] n'] eqn:E1|destruct (idents r (Datatypes.S n) ai) as [[vs ts'] n'] eqn:E1];
      injection E as <- <- <-; (destruct Hv as [<-|Hv]; [|eapply IH; [exact S2| |exact E1|exact Hv]; lia]); try (right; exact L).
    assert (T : top (tr r x)) by (apply I; apply (sub_in _ _ S1); now left). now rewrite (top_tr r D (tr r x) I T).
  Qed.
  Lemma pinv_setl r D fi vi fo vo : pinv r D -> (forall x, In x (fi ++ fo) -> ~ In x A /\ x < m) -> length fi = length vi -> length fo = length vo ->
    (forall v, In v vi -> top v) -> (forall v, In v vo -> top v) -> pinv (rev (combine fo vo) ++ rev (combine fi vi) ++ r) (fo ++ fi ++ D).
  Proof.
    intros [I1 I2] F Li Lo Ti To. split.
    - intros k v H. apply in_app_or in H. destruct H as [H|H]; [apply in_rev in H; apply in_combine_l in H; apply F; apply in_or_app; now right|].
      apply in_app_or in H. destruct H as [H|H]; [apply in_rev in H; apply in_combine_l in H; apply F; apply in_or_app; now left|now apply (I1 k v)].
    - intros x Hx. rewrite (tr_setl fo vo _ (setl (tr r) fi vi) (tr_setl fi vi r (tr r) (fun y => eq_refl)) x). destruct (in_dec Nat.eq_dec x fo) as [K|K]; [apply To; now apply setl_in|]. rewrite setl_out by exact K.
      destruct (in_dec Nat.eq_dec x fi) as [K2|K2]; [apply Ti; now apply setl_in|]. rewrite setl_out by exact K2. apply in_app_or in Hx. destruct Hx as [Hx|Hx]; [contradiction|].
      apply in_app_or in Hx. destruct Hx as [Hx|Hx]; [contradiction|now apply I2].
  Qed.
  Theorem plain_ok st : plok st.
  Proof.
    induction st as [x e|x e|l IH|e l IH|e l1 l2 IH1 IH2|e l IH| | |fi fo b ai ao IH] using cst_ind'; intros D D' U U' r n g P S B L I G.
    - injection P as <-. cbn [scoped] in S. destruct (sub (x :: reads e) D); [|discriminate]. injection S as <-. exists [], r, n, (g ++ [(x, e)]). split; [reflexivity|]. split; [reflexivity|]. split; [lia|]. split; [exact I|].
      split; [|discriminate]. intros y f z H Hz Lz. apply in_app_or in H. destruct H as [H|[[= <- <-]|[]]].
      + right. apply in_or_app. right. now apply (proj1 G y f).
      + destruct Hz as [<-|Hz]; [now left|right; apply in_or_app; now left].
    - cbn [plain] in P. destruct (out (U ++ A) [x]) eqn:O; [|discriminate]. pose proof (out_in _ _ O x (or_introl eq_refl)) as Nx. injection P as <-.
      pose proof (below_in _ _ B) as Bl. assert (X : x < m) by (apply Bl; now left).
      assert (Sf : safe (CVar x e) r n g = true).
      { cbn [safe]. apply forallb_forall. intros [y f] Hy. apply negb_true_iff. destruct (memb x (fst (y, f) :: reads (snd (y, f)))) eqn:M; [|reflexivity]. apply memb_in in M. exfalso. apply Nx. apply in_or_app. left. now apply (proj1 G y f). }
      assert (I' : pinv ((x, n) :: r) (x :: D)).
      { destruct I as [I1 I2]. split.
        - intros k v [[= <- <-]|H]; [split; [intros K; apply Nx; apply in_or_app; now right|exact X]|now apply (I1 k v)].
        - intros y Hy. rewrite tr_cons. destruct (Nat.eqb_spec y x); [right; exact L|]. destruct Hy as [Hy|Hy]; [congruence|now apply I2]. }
      destruct e as [e|]; cbn [scoped] in S.
      + destruct (sub (reads e) (x :: D)); [|discriminate]. injection S as <-. exists [], ((x, n) :: r), (Datatypes.S n), (g ++ [(n, e)]). split; [reflexivity|]. split; [exact Sf|]. split; [lia|]. split; [exact I'|].
        split; [|discriminate]. intros y f z H Hz Lz. apply in_app_or in H. destruct H as [H|[[= <- <-]|[]]].
        * right. apply in_or_app. right. now apply (proj1 G y f).
        * destruct Hz as [Hz|Hz]; [lia|right; apply in_or_app; now left].
      + injection S as <-. exists [], ((x, n) :: r), (Datatypes.S n), g. split; [reflexivity|]. split; [exact Sf|]. split; [lia|]. split; [exact I'|exact G].
    - change (plain A (CBlock l) U) with (do _ <- plains A l []; Some (@nil nat)) in P. change (scoped (CBlock l) D) with (do _ <- scopeds l D; Some D) in S. cbn [small] in B.
      destruct (plains A l []) as [U1|] eqn:P1; [|discriminate]. destruct (scopeds l D) as [D1|] eqn:S1; [|discriminate]. cbn [obind] in P, S. injection P as <-. injection S as <-.
      destruct (plb l D D1 U1 r n IH P1 S1 B L I) as [b [n' [E [F L']]]]. exists (flush r g ++ [SBlock b]), r, n', []. rewrite elab_block, safe_block, E, F. cbn [obind]. split; [reflexivity|]. split; [reflexivity|]. split; [exact L'|]. split; [exact I|apply pseg_nil].
    - change (plain A (CIf e l) U) with (do _ <- plains A l []; Some (@nil nat)) in P. change (scoped (CIf e l) D) with (if sub (reads e) D then do _ <- scopeds l D; Some D else None) in S. destruct (sub (reads e) D); [|discriminate].
      cbn [small] in B. apply andb_true_iff in B. destruct B as [_ B].
      destruct (plains A l []) as [U1|] eqn:P1; [|discriminate]. destruct (scopeds l D) as [D1|] eqn:S1; [|discriminate]. cbn [obind] in P, S. injection P as <-. injection S as <-.
      destruct (plb l D D1 U1 r n IH P1 S1 B L I) as [b [n' [E [F L']]]]. exists (flush r g ++ [SIf (tre r e) b]), r, n', []. rewrite elab_if, safe_if, E, F. cbn [obind]. split; [reflexivity|]. split; [reflexivity|]. split; [exact L'|]. split; [exact I|apply pseg_nil].
    - change (plain A (CIfElse e l1 l2) U) with (do _ <- plains A l1 []; do _ <- plains A l2 []; Some (@nil nat)) in P.
      change (scoped (CIfElse e l1 l2) D) with (if sub (reads e) D then do _ <- scopeds l1 D; do _ <- scopeds l2 D; Some D else None) in S. destruct (sub (reads e) D); [|discriminate].
      cbn [small] in B. apply andb_true_iff in B. destruct B as [B B3]. apply andb_true_iff in B. destruct B as [_ B2].
      destruct (plains A l1 []) as [U1|] eqn:P1; [|discriminate]. cbn [obind] in P. destruct (plains A l2 []) as [U2|] eqn:P2; [|discriminate]. cbn [obind] in P.
      destruct (scopeds l1 D) as [D1|] eqn:S1; [|discriminate]. cbn [obind] in S. destruct (scopeds l2 D) as [D2|] eqn:S2; [|discriminate]. cbn [obind] in S. injection P as <-. injection S as <-.
      destruct (plb l1 D D1 U1 r n IH1 P1 S1 B2 L I) as [b1 [n1 [E1 [F1 L1]]]]. destruct (plb l2 D D2 U2 r n1 IH2 P2 S2 B3 ltac:(lia) I) as [b2 [n2 [E2 [F2 L2]]]].
      exists (flush r g ++ [SIfElse (tre r e) b1 b2]), r, n2, []. rewrite elab_ifelse, safe_ifelse, E1. cbn [obind]. rewrite E2, F1, F2. cbn [obind]. split; [reflexivity|]. split; [reflexivity|]. split; [lia|]. split; [exact I|apply pseg_nil].
    - change (plain A (CWhile e l) U) with (do _ <- plains A l []; Some (@nil nat)) in P. change (scoped (CWhile e l) D) with (if sub (reads e) D then do _ <- scopeds l D; Some D else None) in S. destruct (sub (reads e) D); [|discriminate].
      cbn [small] in B. apply andb_true_iff in B. destruct B as [_ B].
      destruct (plains A l []) as [U1|] eqn:P1; [|discriminate]. destruct (scopeds l D) as [D1|] eqn:S1; [|discriminate]. cbn [obind] in P, S. injection P as <-. injection S as <-.
      destruct (plb l D D1 U1 r n IH P1 S1 B L I) as [b [n' [E [F L']]]]. exists (flush r g ++ [SWhile (tre r e) b]), r, n', []. rewrite elab_while, safe_while, E, F. cbn [obind]. split; [reflexivity|]. split; [reflexivity|]. split; [exact L'|]. split; [exact I|apply pseg_nil].
    - injection P as <-. injection S as <-. exists (flush r g ++ [SBreak]), r, n, []. split; [reflexivity|]. split; [reflexivity|]. split; [lia|]. split; [exact I|apply pseg_nil].
    - injection P as <-. injection S as <-. exists (flush r g ++ [SStep]), r, n, []. split; [reflexivity|]. split; [reflexivity|]. split; [lia|]. split; [exact I|apply pseg_nil].
    - change (plain A (CInst fi fo b ai ao) U) with (if out A (fi ++ fo) && (forallb is_id ai || nil_ U) then do _ <- plains A b []; Some (@nil nat) else None) in P.
      destruct (out A (fi ++ fo)) eqn:O; [|discriminate]. destruct (forallb is_id ai || nil_ U) eqn:Q; [|discriminate]. cbn [andb] in P.
      change (scoped (CInst fi fo b ai ao) D) with (if forallb (fun e => sub (reads e) D) ai && sub ao D && Nat.eqb (length fi) (length ai) && Nat.eqb (length fo) (length ao)
        then do _ <- scopeds b (fo ++ fi ++ D); Some D else None) in S.
      destruct (forallb (fun e => sub (reads e) D) ai && sub ao D && Nat.eqb (length fi) (length ai) && Nat.eqb (length fo) (length ao)) eqn:C; [|discriminate].
      apply andb_true_iff in C. destruct C as [C C4]. apply andb_true_iff in C. destruct C as [C C3]. apply andb_true_iff in C. destruct C as [C1 C2]. apply Nat.eqb_eq in C3, C4.
      destruct (plains A b []) as [U1|] eqn:P1; [|discriminate]. destruct (scopeds b (fo ++ fi ++ D)) as [D1|] eqn:S1; [|discriminate]. cbn [obind] in P, S. injection P as <-. injection S as <-.
      cbn [small] in B. apply andb_true_iff in B. destruct B as [B B3]. apply andb_true_iff in B. destruct B as [B1 B2]. pose proof (below_in _ _ B1) as Bl. pose proof (sub_in _ _ C2) as Ao.
      destruct (idents r n ai) as [[vi ts] n1] eqn:E1. destruct (idents_len r ai n vi ts n1 E1) as [Lv Ln].
      pose proof (idents_top r D ai I C1 n vi ts n1 L E1) as Tv.
      assert (St : forall x, In x D -> stable r x = true) by (intros x Hx; unfold stable; apply Nat.eqb_eq; apply (top_tr r D _ I); now apply I).
      set (vo := map (fun x => tr r (tr r x)) ao) in *.
      assert (To : forall v, In v vo -> top v).
      { intros v Hv. unfold vo in Hv. apply in_map_iff in Hv. destruct Hv as [x [<- Hx]]. pose proof (St x (Ao x Hx)) as E. unfold stable in E. apply Nat.eqb_eq in E. rewrite E. now apply I, Ao. }
      assert (I' : pinv (rev (combine fo vo) ++ rev (combine fi vi) ++ r) (fo ++ fi ++ D)).
      { apply pinv_setl; auto; [|congruence|unfold vo; now rewrite map_length]. intros x Hx. split; [exact (out_in _ _ O x Hx)|]. apply Bl. rewrite app_assoc. apply in_or_app. now left. }
      destruct (plb b _ D1 U1 _ n1 IH P1 S1 B3 ltac:(lia) I') as [bb [n2 [E2 [F2 L2]]]].
      exists (flush r (rev ts ++ g) ++ [SBlock bb]), r, n2, []. rewrite elab_inst, safe_inst, E1. cbn zeta. fold vo. rewrite E2, F2. cbn [obind].
      assert (Ll : length vo = length ao) by (unfold vo; now rewrite map_length). rewrite Lv, Ll, C3, C4, !Nat.eqb_refl. cbn [negb orb]. split; [reflexivity|]. split; [|split; [lia|split; [exact I|apply pseg_nil]]].
      rewrite andb_true_r. apply andb_true_iff. split.
      + rewrite forallb_forall in C1 |- *. intros e He. specialize (C1 e He). assert (X : is_id e = false -> forallb (fun i : nat * expr => negb (memb (tr r (fst i)) (reads (tre r e)))) g = true).
        { intros Ie. apply orb_true_iff in Q. destruct Q as [Q|Q]; [rewrite forallb_forall in Q; rewrite (Q e He) in Ie; discriminate|]. destruct U; [|discriminate]. destruct G as [_ G]. rewrite (G eq_refl). reflexivity. }
        destruct e; try (now apply X). apply St. apply (sub_in _ _ C1). now left.
      + apply forallb_forall. intros x Hx. now apply St, Ao.
  Qed.
  Theorem plain_paste ret n l U' D' : plains A l [] = Some U' -> scopeds l A = Some D' -> forallb (small m) l = true -> m <= n ->
    exists p, elaborate n l = Some p /\ eqv ret p (pasted n l).
  Proof.
    intros P S B L. assert (I : pinv [] A) by (split; [intros k v []|intros x Hx; now left]).
    destruct (plb l A D' U' [] n (proj2 (Forall_forall _ l) (fun st _ => plain_ok st)) P S B L I) as [b [n' [E [F _]]]].
    assert (Eb : elaborate n l = Some b) by (unfold elaborate; now rewrite E). exists b. split; [exact Eb|]. exact (elaborate_paste ret m n l b L B F Eb).
  Qed.
End Plain.

(** * The programs obtained are structured *)
From Verif Require Import FsmLayout FsmGather FsmRegion FsmTotal.
(** A break is in a loop. *)
Fixpoint cbrk (lp : bool) (st : cst) : bool :=
  match st with
  | CBlock l => forallb (cbrk lp) l
  | CIf _ l => forallb (cbrk lp) l
  | CIfElse _ l1 l2 => forallb (cbrk lp) l1 && forallb (cbrk lp) l2
  | CWhile _ l => forallb (cbrk true) l
  | CBreak => lp
  | CInst _ _ b _ _ => forallb (cbrk lp) b
  | _ => true
  end.
Definition good (lp : bool) (st : stmt) : Prop := structured false st = true /\ covered st = true /\ labels st = [] /\ brkok lp st = true.
Lemma good_list lp l : Forall (good lp) l -> structureds false l = true /\ covereds l = true /\ labelss l = [] /\ brkoks lp l = true.
Proof.
  induction 1 as [|x l [A [B [C D]]] _ [E [F [G H]]]]; [repeat split|]. unfold structureds, covereds, labelss, brkoks in *. cbn [forallb flat_map]. rewrite A, B, C, D. now repeat split.
Qed.
Lemma flush_good lp r g : Forall (good lp) (flush r g).
Proof. apply Forall_forall. intros st H. unfold flush in H. apply in_map_iff in H. destruct H as [i [<- _]]. now repeat split. Qed.
Definition gok (st : cst) : Prop := forall lp r n g o r' n' g', cbrk lp st = true -> elab st r n g = Some (o, r', n', g') -> Forall (good lp) o.
Lemma elabs_good l : Forall gok l -> forall lp r n g o r' n' g', forallb (cbrk lp) l = true -> elabs l r n g = Some (o, r', n', g') -> Forall (good lp) o.
Proof.
  induction 1 as [|x l Hx _ IH]; intros lp r n g o r' n' g' B E; [cbn in E; injection E as <- _ _ _; constructor|]. rewrite elabs_cons in E. cbn [forallb] in B. apply andb_true_iff in B. destruct B as [B1 B2].
  destruct (elab x r n g) as [[[[o1 r1] n1] g1]|] eqn:E1; [|discriminate]. cbn [obind] in E. destruct (elabs l r1 n1 g1) as [[[[o2 r2] n2] g2]|] eqn:E2; [|discriminate]. cbn [obind] in E. injection E as <- <- <- <-.
  apply Forall_app. split; [eapply Hx; eassumption|eapply IH; eassumption].
Qed.
Lemma ebody_good l : Forall gok l -> forall lp r n b n', forallb (cbrk lp) l = true -> ebody l r n = Some (b, n') -> Forall (good lp) b.
Proof.
  intros H lp r n b n' B E. unfold ebody in E. destruct (elabs l r n []) as [[[[o r1] n1] g1]|] eqn:E1; [|discriminate]. cbn [obind] in E. injection E as <- <-.
  apply Forall_app. split; [eapply elabs_good; eassumption|apply flush_good].
Qed.
Lemma close_good lp r g st : good lp st -> Forall (good lp) (flush r g ++ [st]).
Proof. intros H. apply Forall_app. split; [apply flush_good|]. now constructor. Qed.
Lemma elab_good st : gok st.
Proof.
  induction st as [x e|x e|l IH|e l IH|e l1 l2 IH1 IH2|e l IH| | |fi fo b ai ao IH] using cst_ind'; intros lp r n g o r' n' g' B E.
  - injection E as <- _ _ _. constructor.
  - destruct e; injection E as <- _ _ _; constructor.
  - rewrite elab_block in E. destruct (ebody l r n) as [[b n1]|] eqn:E1; [|discriminate]. cbn [obind] in E. injection E as <- _ _ _. apply close_good. destruct (good_list _ _ (ebody_good l IH lp _ _ _ _ B E1)) as [A1 [A2 [A3 A4]]].
    repeat split; assumption.
  - rewrite elab_if in E. destruct (ebody l r n) as [[b n1]|] eqn:E1; [|discriminate]. cbn [obind] in E. injection E as <- _ _ _. apply close_good. destruct (good_list _ _ (ebody_good l IH lp _ _ _ _ B E1)) as [A1 [A2 [A3 A4]]].
    repeat split; assumption.
  - rewrite elab_ifelse in E. cbn [cbrk] in B. apply andb_true_iff in B. destruct B as [B1 B2]. destruct (ebody l1 r n) as [[b1 n1]|] eqn:E1; [|discriminate]. cbn [obind] in E. destruct (ebody l2 r n1) as [[b2 n2]|] eqn:E2; [|discriminate]. cbn [obind] in E.
    injection E as <- _ _ _. apply close_good. destruct (good_list _ _ (ebody_good l1 IH1 lp _ _ _ _ B1 E1)) as [A1 [A2 [A3 A4]]]. destruct (good_list _ _ (ebody_good l2 IH2 lp _ _ _ _ B2 E2)) as [C1 [C2 [C3 C4]]].
    unfold structureds, covereds, brkoks, labelss in *. repeat split; cbn [structured covered labels brkok]; [now rewrite A1|now rewrite A2|unfold labelss; now rewrite A3, C3|now rewrite A4].
  - rewrite elab_while in E. destruct (ebody l r n) as [[b n1]|] eqn:E1; [|discriminate]. cbn [obind] in E. injection E as <- _ _ _. apply close_good. destruct (good_list _ _ (ebody_good l IH true _ _ _ _ B E1)) as [A1 [A2 [A3 A4]]].
    repeat split; assumption.
  - injection E as <- _ _ _. apply close_good. cbn in B. subst. now repeat split.
  - injection E as <- _ _ _. apply close_good. now repeat split.
  - rewrite elab_inst in E. destruct (idents r n ai) as [[vi ts] n1]. cbn zeta in E. destruct (negb (length fi =? length vi) || _); [discriminate|].
    match type of E with obind ?x _ = _ => destruct x as [[bb n2]|] eqn:E1; [|discriminate] end. cbn [obind] in E. injection E as <- _ _ _. apply close_good.
    destruct (good_list _ _ (ebody_good b IH lp _ _ _ _ B E1)) as [A1 [A2 [A3 A4]]]. repeat split; assumption.
Qed.
Lemma elaborate_good n l p : forallb (cbrk false) l = true -> elaborate n l = Some p ->
  structureds false p = true /\ covereds p = true /\ labelss p = [] /\ brkoks false p = true.
Proof.
  intros B E. unfold elaborate in E. destruct (ebody l [] n) as [[b n']|] eqn:E1; [|discriminate]. cbn [obind] in E. injection E as <-. apply good_list.
  eapply ebody_good; [apply Forall_forall; intros st _; apply elab_good|exact B|exact E1].
Qed.
