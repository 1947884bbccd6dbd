(** Gathering of programs with subroutines: subroutines of the blocks, calls and returns. *)
From Coq Require Import List Bool Arith ZArith Lia.
Import ListNotations.
From Verif Require Import FsmModel FsmEmit FsmLayout FsmGather FsmRenum FsmRun FsmSkip SubModel SubProofs.

Lemma some_inj {A} (x y : A) : Some x = Some y -> x = y.
Proof. now intros [=]. Qed.

Section Ind.
  Variable P : cst -> Prop.
  Hypothesis H_assign : forall x e, P (CAssign x e).
  Hypothesis H_block : forall l, Forall P l -> P (CBlock l).
  Hypothesis H_if : forall e l, Forall P l -> P (CIf e l).
  Hypothesis H_ifelse : forall e l1 l2, Forall P l1 -> Forall P l2 -> P (CIfElse e l1 l2).
  Hypothesis H_switch : forall e cs, Forall (fun c => Forall P (snd c)) cs -> P (CSwitch e cs).
  Hypothesis H_while : forall e l, Forall P l -> P (CWhile e l).
  Hypothesis H_break : P CBreak.
  Hypothesis H_step : P CStep.
  Hypothesis H_call : forall n i o, P (CCall n i o).
  Hypothesis H_return : P CReturn.
  Hypothesis H_sub : forall n l, Forall P l -> P (CSub n l).
  Hypothesis H_fwd : forall n, P (CFwd n).
  Fixpoint cst_ind2 (s : cst) : P s :=
    let fl := (fix fl (l : list cst) : Forall P l := match l with [] => Forall_nil _ | x :: r => Forall_cons x (cst_ind2 x) (fl r) end) in
    match s with
    | CAssign x e => H_assign x e
    | CBlock l => H_block l (fl l)
    | CIf e l => H_if e l (fl l)
    | CIfElse e a b => H_ifelse e a b (fl a) (fl b)
    | CSwitch e cs => H_switch e cs ((fix fc (cs : list (option Z * list cst)) : Forall (fun c => Forall P (snd c)) cs :=
        match cs with [] => Forall_nil _ | c :: r => Forall_cons c (fl (snd c)) (fc r) end) cs)
    | CWhile e l => H_while e l (fl l)
    | CBreak => H_break
    | CStep => H_step
    | CCall n i o => H_call n i o
    | CReturn => H_return
    | CSub n l => H_sub n l (fl l)
    | CFwd n => H_fwd n
    end.
End Ind.

Section G.
  Variables (caller : var) (save : nat -> var) (rank : nat -> nat).
  Notation reg := (reg caller save).
  Definition user (e : expr) : Prop := forall y, In y (evars e) -> ~ reg y.
  Definition users (l : list (var * expr)) : Prop := forall x e, In (x, e) l -> ~ reg x /\ user e.

  (** What is asked of programs. [brk]: inside of a loop; [sub]: inside of a subroutine. Subroutines call subroutines of smaller ranks, a break
      in a subroutine is in a loop of the subroutine, and the registers of the calls are not variables of the program. *)
  Fixpoint fair (brk : bool) (sub : option nat) (st : cst) : Prop :=
    let all := fun brk sub => fix all (l : list cst) : Prop := match l with [] => True | x :: r => fair brk sub x /\ all r end in
    match st with
    | CAssign x e => ~ reg x /\ user e
    | CBlock l => all brk sub l
    | CIf e l => user e /\ all brk sub l
    | CIfElse e l1 l2 => user e /\ all brk sub l1 /\ all brk sub l2
    | CSwitch e cs => user e /\ (fix allc (cs : list (option Z * list cst)) : Prop := match cs with [] => True | c :: r => all brk sub (snd c) /\ allc r end) cs
    | CWhile e l => user e /\ all true sub l
    | CBreak => brk = true
    | CStep => True
    | CCall n ins outs => users ins /\ users outs /\ forall s, sub = Some s -> rank n < rank s
    | CReturn => True
    | CSub n l => all false (Some n) l
    | CFwd n => True
    end.
  Fixpoint fairs (brk : bool) (sub : option nat) (l : list cst) : Prop := match l with [] => True | x :: r => fair brk sub x /\ fairs brk sub r end.
  Fixpoint fairc (brk : bool) (sub : option nat) (cs : list (option Z * list cst)) : Prop :=
    match cs with [] => True | c :: r => fairs brk sub (snd c) /\ fairc brk sub r end.

  (** * Invariant of the gathering *)
  Definition okb (s : cgst) (b : nat) : Prop :=
    (forall x, In x (jumps (b_end (g_blk (c_g s) b))) -> c_sub s x = c_sub s b /\ x < g_next (c_g s)) /\
    (forall e, In e (tests (b_end (g_blk (c_g s) b))) -> user e) /\
    (forall x e, In (IAssign x e) (b_ins (g_blk (c_g s) b)) -> ~ reg x /\ user e) /\
    match b_end (g_blk (c_g s) b) with
    | ECall c sv _ go rt => c = caller /\ sv = option_map save (c_sub s b) /\ c_sub s rt = c_sub s b /\ rt < g_next (c_g s) /\ go < g_next (c_g s) /\
        exists t, c_sub s go = Some t /\ forall u, c_sub s b = Some u -> rank t < rank u
    | ERet c _ => c = caller /\ c_sub s b <> None
    | _ => True
    end.
  Record CI (s : cgst) : Prop := {
    ci_b : forall b, okb s b;
    ci_out : forall b, g_next (c_g s) <= b -> b_end (g_blk (c_g s) b) = ENone /\ b_ins (g_blk (c_g s) b) = [];
    ci_subs : forall n t p, In (n, (t, p)) (c_subs s) -> c_sub s t = Some n /\ t < g_next (c_g s);
    ci_pos : 0 < g_next (c_g s)
  }.
  (** Blocks keep their subroutine. *)
  Definition Le (s s' : cgst) : Prop := g_next (c_g s) <= g_next (c_g s') /\ forall b, b < g_next (c_g s) -> c_sub s' b = c_sub s b.
  Lemma le_refl s : Le s s.
  Proof. split; auto. Qed.
  Lemma le_trans a b c : Le a b -> Le b c -> Le a c.
  Proof. intros [H1 H2] [H3 H4]. split; [lia|]. intros x Hx. rewrite H4 by lia. now apply H2. Qed.

  Definition Good (l : option nat) (s : cgst) (c : nat) : Prop := CI s /\ c < g_next (c_g s) /\ c_sub s c = l.
  Lemma good_le l s s' c : Good l s c -> CI s' -> Le s s' -> Good l s' c.
  Proof. intros [A [B C]] I [L1 L2]. split; [exact I|]. split; [lia|]. now rewrite L2. Qed.

  (** Steps *)
  Lemma add_in_ok l s : CI s -> CI (snd (add_in l s)) /\ Le s (snd (add_in l s)) /\ Good l (snd (add_in l s)) (fst (add_in l s)).
  Proof.
    intros I. unfold add_in, add_block. cbn.
    set (s' := {| c_g := _; c_sub := _; c_subs := _ |}).
    assert (L : Le s s').
    { split; cbn; [lia|]. intros b Hb. apply fset_other. lia. }
    assert (BE : forall b, b_end (g_blk (c_g s') b) = b_end (g_blk (c_g s) b) /\ b_ins (g_blk (c_g s') b) = b_ins (g_blk (c_g s) b)).
    { intros b. cbn. unfold gset. destruct (Nat.eqb_spec b (g_next (c_g s))) as [ ->|N]; [|auto]. destruct (ci_out _ I (g_next (c_g s)) (le_n _)) as [-> ->]. auto. }
    assert (CI s').
    { constructor.
      - intros b. destruct (le_lt_dec (g_next (c_g s)) b) as [H|H].
        + destruct (ci_out _ I b H) as [E1 E2]. destruct (BE b) as [B1 B2]. unfold okb. rewrite B1, B2, E1, E2. cbn. tauto.
        + destruct (ci_b _ I b) as [J1 [J2 [J3 J4]]]. destruct (BE b) as [B1 B2]. destruct L as [L1 L2]. unfold okb. rewrite B1, B2.
          split; [|split; [exact J2|split; [exact J3|]]].
          * intros x Hx. destruct (J1 x Hx) as [K1 K2]. split; [|cbn; lia]. rewrite !L2 by assumption. exact K1.
          * destruct (b_end (g_blk (c_g s) b)) as [| | | | | |c sv cid go rt|c rets]; auto.
            -- destruct J4 as [-> [-> [K3 [K4 [K5 [t [K6 K7]]]]]]]. rewrite !L2 by assumption. split; [reflexivity|]. split; [reflexivity|]. split; [exact K3|].
               split; [cbn; lia|]. split; [cbn; lia|]. now exists t.
            -- now rewrite L2.
      - intros b Hb. cbn in Hb. destruct (BE b) as [-> ->]. apply (ci_out _ I). lia.
      - intros n t p Hn. destruct (ci_subs _ I n t p Hn) as [K1 K2]. destruct L as [L1 L2]. rewrite L2 by assumption. split; [exact K1|cbn; lia].
      - cbn. lia. }
    split; [assumption|]. split; [exact L|]. split; [assumption|]. split; [cbn; lia|]. apply fset_same.
  Qed.
  Lemma c_add_ok p s : CI s -> CI (snd (c_add p s)) /\ Le s (snd (c_add p s)) /\ Good (c_sub s p) (snd (c_add p s)) (fst (c_add p s)).
  Proof. intros I. now apply add_in_ok. Qed.

  Definition ok_end (s : cgst) (b : nat) (e : endact) : Prop :=
    (forall x, In x (jumps e) -> c_sub s x = c_sub s b /\ x < g_next (c_g s)) /\ (forall t, In t (tests e) -> user t) /\
    match e with
    | ECall c sv _ go rt => c = caller /\ sv = option_map save (c_sub s b) /\ c_sub s rt = c_sub s b /\ rt < g_next (c_g s) /\ go < g_next (c_g s) /\
        exists t, c_sub s go = Some t /\ forall u, c_sub s b = Some u -> rank t < rank u
    | ERet c _ => c = caller /\ c_sub s b <> None
    | _ => True
    end.
  Lemma c_end_ok s b e : CI s -> b < g_next (c_g s) -> ok_end s b e -> CI (c_end s b e).
  Proof.
    intros I Hb [E1 [E2 E3]]. assert (BI : forall x, b_ins (g_blk (c_g (c_end s b e)) x) = b_ins (g_blk (c_g s) x)) by (intros x; apply i_end). constructor.
    - intros x. unfold okb. rewrite BI. destruct (ci_b _ I x) as [J1 [J2 [J3 J4]]]. destruct (Nat.eq_dec x b) as [ ->|N].
      + unfold c_end, with_g. cbn [c_g c_sub]. rewrite e_end_same. auto.
      + unfold c_end, with_g. cbn [c_g c_sub]. rewrite (e_end _ _ _ _ N). auto.
    - intros x Hx. rewrite BI. cbn in Hx. unfold c_end, with_g. cbn [c_g]. rewrite e_end by lia. now apply (ci_out _ I).
    - exact (ci_subs _ I).
    - exact (ci_pos _ I).
  Qed.
  Lemma c_next_ok s b n : CI s -> b < g_next (c_g s) -> n < g_next (c_g s) -> c_sub s n = c_sub s b -> CI (c_next s b n).
  Proof. intros I Hb Hn E. apply c_end_ok; auto. split; [|split; [intros t []|exact Logic.I]]. intros x [ <-|[]]. auto. Qed.
  Lemma c_state_ok s b v : CI s -> CI (c_state s b v).
  Proof.
    intros I. constructor.
    - intros x. unfold okb, c_state, with_g. cbn [c_g c_sub]. rewrite i_state, e_state. apply (ci_b _ I).
    - intros x Hx. unfold c_state, with_g. cbn [c_g]. rewrite i_state, e_state. now apply (ci_out _ I).
    - exact (ci_subs _ I).
    - exact (ci_pos _ I).
  Qed.
  Lemma c_noskip_ok s b : CI s -> CI (with_g s (upd_blk (c_g s) (set_noskip (g_blk (c_g s)) b))).
  Proof.
    intros I. constructor.
    - intros x. unfold okb, with_g. cbn [c_g c_sub]. rewrite i_nsk, e_nsk. apply (ci_b _ I).
    - intros x Hx. unfold with_g. cbn [c_g]. rewrite i_nsk, e_nsk. now apply (ci_out _ I).
    - exact (ci_subs _ I).
    - exact (ci_pos _ I).
  Qed.
  Lemma c_last_ok s b : CI s -> CI (with_g s (st_last (c_g s) b)).
  Proof. intros I. constructor; [exact (ci_b _ I)|exact (ci_out _ I)|exact (ci_subs _ I)|exact (ci_pos _ I)]. Qed.
  Lemma c_ins_ok s b l : CI s -> b < g_next (c_g s) -> (forall x e, In (IAssign x e) l -> ~ reg x /\ user e) -> CI (c_ins s b l).
  Proof.
    intros I Hb Hl. constructor.
    - intros x. unfold okb, c_ins, with_g. cbn [c_g c_sub]. rewrite e_ins. destruct (ci_b _ I x) as [J1 [J2 [J3 J4]]]. split; [exact J1|]. split; [exact J2|]. split; [|exact J4].
      destruct (Nat.eq_dec x b) as [ ->|N]; [|rewrite b_insx by assumption; exact J3]. rewrite i_ins_same. intros y e Hy. apply in_app_or in Hy. destruct Hy as [Hy|Hy]; auto.
    - intros x Hx. unfold c_ins, with_g. cbn [c_g]. cbn in Hx. rewrite b_insx by lia. now apply (ci_out _ I).
    - exact (ci_subs _ I).
    - exact (ci_pos _ I).
  Qed.
  Lemma cput_ok n t p s : CI s -> c_sub s t = Some n -> t < g_next (c_g s) -> CI (cput n t p s).
  Proof. intros I E L. constructor; [exact (ci_b _ I)|exact (ci_out _ I)| |exact (ci_pos _ I)]. intros m u q [[= <- <- <-]|H]; [auto|now apply (ci_subs _ I m u q)]. Qed.
  Lemma cfind_ok n s t p : CI s -> cfind n s = Some (t, p) -> c_sub s t = Some n /\ t < g_next (c_g s).
  Proof.
    unfold cfind. intros I H. destruct (find _ (c_subs s)) as [[m v]|] eqn:F; [|discriminate]. injection H as ->. apply find_some in F. destruct F as [F1 F2].
    cbn in F2. apply Nat.eqb_eq in F2. subst m. now apply (ci_subs _ I n t p).
  Qed.

  (** * Equations of the gathering *)
  Variable fuel : nat.
  Notation cgather := (cgather caller save fuel).
  Notation cgather_list := (cgather_list caller save fuel).
  Definition cgblock (brk : option nat) (l : list cst) (cur : nat) (s : cgst) : option (nat * cgst) :=
    let (nb, s1) := c_add cur s in
    do (a, s3) <- cgather_list brk l nb (c_next s1 cur nb);
    let (nx, s4) := c_add cur s3 in
    Some (nx, c_next s4 a nx).
  Definition cgcases (brk : option nat) (cur af : nat) := fix cgcases (cs : list (option Z * list cst)) (s : cgst) : option (list (option Z * nat) * cgst) :=
    match cs with
    | [] => Some ([], s)
    | (v, l) :: r =>
        let (cb, s1) := c_add cur s in
        do (ca, s2) <- cgblock brk l cb s1;
        do (bs, s3) <- cgcases r (c_next s2 ca af);
        Some ((v, cb) :: bs, s3)
    end.
  Lemma cg_if brk e l cur s : cgather brk (CIf e l) cur s =
    let (ib, s1) := c_add cur s in
    let (eb, s2) := c_add cur s1 in
    do (ia, s3) <- cgblock brk l ib s2;
    let (af, s4) := c_add cur s3 in
    let s5 := c_next (c_next s4 ia af) eb af in
    do fl <- stateless fuel (g_blk (c_g s5)) [] [ib];
    Some (af, c_end s5 cur (EIf e ib fl ia eb true eb af)).
  Proof. reflexivity. Qed.
  Lemma cg_ifelse brk e l1 l2 cur s : cgather brk (CIfElse e l1 l2) cur s =
    let (ib, s1) := c_add cur s in
    let (eb, s2) := c_add cur s1 in
    do (ia, s3) <- cgblock brk l1 ib s2;
    do (ea, s4) <- cgblock brk l2 eb s3;
    let (af, s5) := c_add cur s4 in
    let s6 := c_next (c_next s5 ia af) ea af in
    do fi <- stateless fuel (g_blk (c_g s6)) [] [ib];
    do fe <- stateless fuel (g_blk (c_g s6)) [] [eb];
    Some (af, c_end s6 cur (EIf e ib fi ia eb fe ea af)).
  Proof. reflexivity. Qed.
  Definition cgflags (g : graph) := fix all (bs : list (option Z * nat)) : option bool :=
    match bs with
    | [] => Some true
    | (_, b) :: r => do f1 <- stateless fuel g [] [b]; do f2 <- all r; Some (f1 && f2)
    end.
  Lemma cg_switch_eq brk e cs cur s : cgather brk (CSwitch e cs) cur s =
    let (af, s1) := c_add cur s in
    do (bs, s2) <- cgcases brk cur af cs s1;
    let s3 := c_end s2 cur (ESwitch e bs af) in
    do fl <- cgflags (g_blk (c_g s3)) bs;
    Some (af, c_state s3 af (negb fl)).
  Proof. reflexivity. Qed.
  Lemma cg_switch brk e cs cur s c s' : cgather brk (CSwitch e cs) cur s = Some (c, s') -> exists bs s2 fl,
    let af := fst (c_add cur s) in
    cgcases brk cur af cs (snd (c_add cur s)) = Some (bs, s2) /\ c = af /\ s' = c_state (c_end s2 cur (ESwitch e bs af)) af (negb fl).
  Proof.
    rewrite cg_switch_eq. destruct (c_add cur s) as [af s1]. intros H. apply obind_some in H. destruct H as [[bs s2] [H1 H]]. apply obind_some in H. destruct H as [fl [H2 H]].
    injection H as <- <-. exists bs, s2, fl. auto.
  Qed.
  Lemma cgcases_cons brk cur af v l r s : cgcases brk cur af ((v, l) :: r) s =
    let (cb, s1) := c_add cur s in
    do (ca, s2) <- cgblock brk l cb s1;
    do (bs, s3) <- cgcases brk cur af r (c_next s2 ca af);
    Some ((v, cb) :: bs, s3).
  Proof. reflexivity. Qed.
  Lemma cg_break t cur s : cgather (Some t) CBreak cur s = Some (c_add cur (c_state (c_next s cur t) t true)).
  Proof. reflexivity. Qed.
  Lemma cg_step brk cur s : cgather brk CStep cur s =
    let (b, s1) := c_add cur s in
    Some (b, c_next (with_g s1 (upd_blk (c_g s1) (set_noskip (set_state (g_blk (c_g s1)) b true) b))) cur b).
  Proof. reflexivity. Qed.
  Lemma cg_while brk e l cur s : cgather brk (CWhile e l) cur s =
    let (h, s1) := c_add cur s in
    let s2 := c_next s1 cur h in
    let (it, s3) := c_add cur s2 in
    let (af, s4) := c_add cur s3 in
    do (il, s5) <- cgblock (Some af) l it s4;
    let s6 := c_next (with_g s5 (st_last (c_g s5) af)) il h in
    Some (af, c_state (c_end s6 h (EWhile e it af)) h true).
  Proof. reflexivity. Qed.
  Lemma cg_sub brk n l cur s : cgather brk (CSub n l) cur s =
    match c_sub s cur with
    | Some _ => None
    | None =>
        do (top, s1) <- match cfind n s with Some (_, true) => None | Some (top, false) => Some (top, s) | None => Some (add_in (Some n) s) end;
        do (a, s2) <- cgather_list brk l top s1;
        Some (cur, cput n top true (c_state (c_end s2 a (ERet caller [])) top true))
    end.
  Proof. reflexivity. Qed.
  Lemma cg_list brk x r cur s : cgather_list brk (x :: r) cur s = do (c, s') <- cgather brk x cur s; cgather_list brk r c s'.
  Proof. reflexivity. Qed.

  (** * The gathering keeps the invariant *)
  Definition Brk (lp : bool) (brk : option nat) (l : option nat) (s : cgst) : Prop := lp = true -> forall t, brk = Some t -> Good l s t.
  Lemma brk_le lp brk l s s' : Brk lp brk l s -> CI s' -> Le s s' -> Brk lp brk l s'.
  Proof. intros B I L H t Ht. exact (good_le _ _ _ _ (B H t Ht) I L). Qed.
  Definition stmt_ok (st : cst) : Prop := forall brk lp l cur s c s', cgather brk st cur s = Some (c, s') ->
    Good l s cur -> Brk lp brk l s -> fair lp l st -> Le s s' /\ Good l s' c.
  Definition list_ok (p : list cst) : Prop := forall brk lp l cur s c s', cgather_list brk p cur s = Some (c, s') ->
    Good l s cur -> Brk lp brk l s -> fairs lp l p -> Le s s' /\ Good l s' c.
  Definition block_ok (p : list cst) : Prop := forall brk lp l cur s c s', cgblock brk p cur s = Some (c, s') ->
    Good l s cur -> Brk lp brk l s -> fairs lp l p -> Le s s' /\ Good l s' c.

  Lemma list_from p : Forall stmt_ok p -> list_ok p.
  Proof.
    induction 1 as [|x p Hx _ IH]; intros brk lp l cur s c s' H G B F.
    - injection H as <- <-. split; [apply le_refl|exact G].
    - rewrite cg_list in H. apply obind_some in H. destruct H as [[c1 s1] [H1 H]]. destruct F as [F1 F2].
      destruct (Hx _ _ _ _ _ _ _ H1 G B F1) as [L1 G1]. destruct (IH _ lp l _ _ _ _ H G1 (brk_le _ _ _ _ _ B (proj1 G1) L1) F2) as [L2 G2].
      split; [eapply le_trans; eassumption|exact G2].
  Qed.
  Lemma same_le s s' : g_next (c_g s') = g_next (c_g s) -> c_sub s' = c_sub s -> Le s s'.
  Proof. intros E1 E2. split; [lia|]. intros b _. now rewrite E2. Qed.
  Lemma next_le s b n : Le s (c_next s b n).
  Proof. now apply same_le. Qed.
  Lemma end_le s b e : Le s (c_end s b e).
  Proof. now apply same_le. Qed.
  Lemma state_le s b v : Le s (c_state s b v).
  Proof. now apply same_le. Qed.

  Lemma add_good l cur s nb s1 : c_add cur s = (nb, s1) -> Good l s cur -> Le s s1 /\ CI s1 /\ Good l s1 nb.
  Proof.
    intros E [I [H1 H2]]. destruct (c_add_ok cur s I) as [A [B C]]. rewrite E in *. cbn in *. rewrite H2 in C. auto.
  Qed.
  Lemma next_good l s a b : Good l s a -> Good l s b -> CI (c_next s a b).
  Proof. intros [I [A1 A2]] [_ [B1 B2]]. apply c_next_ok; auto. congruence. Qed.

  Lemma block_from p : list_ok p -> block_ok p.
  Proof.
    intros IH brk lp l cur s c s' H G B F. unfold cgblock in H. destruct (c_add cur s) as [nb s1] eqn:A1. destruct (add_good _ _ _ _ _ A1 G) as [L1 [I1 G1]].
    apply obind_some in H. destruct H as [[a s3] [H2 H]]. destruct (c_add cur s3) as [nx s4] eqn:A2. injection H as <- <-.
    pose proof (good_le _ _ _ _ G I1 L1) as Gc1. pose proof (next_good _ _ _ _ Gc1 G1) as I2.
    destruct (IH _ lp l _ _ _ _ H2) as [L3 G3]; [eapply good_le; [exact G1|exact I2|apply next_le]|eapply brk_le; [exact B|exact I2|eapply le_trans; [exact L1|apply next_le]]|exact F|].
    pose proof (le_trans _ _ _ L1 (le_trans _ _ _ (next_le s1 cur nb) L3)) as L13.
    destruct (add_good _ _ _ _ _ A2 (good_le _ _ _ _ G (proj1 G3) L13)) as [L4 [I4 G4]].
    pose proof (next_good _ _ _ _ (good_le _ _ _ _ G3 I4 L4) G4) as I5. split.
    - eapply le_trans; [exact L13|]. eapply le_trans; [exact L4|apply next_le].
    - eapply good_le; [exact G4|exact I5|apply next_le].
  Qed.

  Lemma fair_block brk sub l : fair brk sub (CBlock l) = fairs brk sub l. Proof. cbn. induction l as [|x r IH]; [reflexivity|]. cbn. now rewrite IH. Qed.
  Lemma fair_sub brk sub n l : fair brk sub (CSub n l) = fairs false (Some n) l. Proof. exact (fair_block false (Some n) l). Qed.
  Lemma fair_if brk sub e l : fair brk sub (CIf e l) = (user e /\ fairs brk sub l). Proof. rewrite <- fair_block. reflexivity. Qed.
  Lemma fair_while brk sub e l : fair brk sub (CWhile e l) = (user e /\ fairs true sub l). Proof. rewrite <- fair_block. reflexivity. Qed.
  Lemma fair_ifelse brk sub e l1 l2 : fair brk sub (CIfElse e l1 l2) = (user e /\ fairs brk sub l1 /\ fairs brk sub l2). Proof. rewrite <- !fair_block. reflexivity. Qed.
  Lemma fair_switch brk sub e cs : fair brk sub (CSwitch e cs) = (user e /\ fairc brk sub cs).
  Proof. cbn [fair]. f_equal. induction cs as [|c cs IH]; [reflexivity|]. cbn [fairc]. rewrite <- IH, <- fair_block. reflexivity. Qed.

  Lemma cond_good l s cur e ib fi ia eb fe ea af : Good l s cur -> Good l s ib -> Good l s eb -> Good l s af -> user e -> CI (c_end s cur (EIf e ib fi ia eb fe ea af)).
  Proof.
    intros [I [C1 C2]] [_ [I1 I2]] [_ [E1 E2]] [_ [A1 A2]] U. apply c_end_ok; [exact I|exact C1|]. split; [|split; [|exact Logic.I]].
    - intros x [ <-|[ <-|[ <-|[]]]]; split; congruence.
    - intros t [ <-|[]]. exact U.
  Qed.
  Lemma cases_ok af cs : Forall (fun c => Forall stmt_ok (snd c)) cs -> forall brk lp l cur s bs s', cgcases brk cur af cs s = Some (bs, s') ->
    Good l s cur -> Good l s af -> Brk lp brk l s -> fairc lp l cs -> Le s s' /\ CI s' /\ forall x, In x (map snd bs) -> Good l s' x.
  Proof.
    induction 1 as [|[v p] cs Hp _ IH]; intros brk lp l cur s bs s' H G Ga B F; [|rewrite cgcases_cons in H].
    - injection H as <- <-. split; [apply le_refl|]. split; [apply G|]. intros x [].
    - destruct (c_add cur s) as [cb s1] eqn:A1. destruct (add_good _ _ _ _ _ A1 G) as [L1 [I1 G1]]. apply obind_some in H. destruct H as [[ca s2] [H2 H]].
      apply obind_some in H. destruct H as [[bs' s3] [H3 H]]. injection H as <- <-. destruct F as [F1 F2].
      destruct (block_from p (list_from p Hp) _ lp l _ _ _ _ H2 G1 (brk_le _ _ _ _ _ B I1 L1) F1) as [L2 G2].
      pose proof (le_trans _ _ _ L1 L2) as L12. pose proof (next_good _ _ _ _ G2 (good_le _ _ _ _ Ga (proj1 G2) L12)) as I3.
      pose proof (le_trans _ _ _ L12 (next_le s2 ca af)) as L13.
      destruct (IH _ lp l _ _ _ _ H3 (good_le _ _ _ _ G I3 L13) (good_le _ _ _ _ Ga I3 L13) (brk_le _ _ _ _ _ B I3 L13) F2) as [L4 [I4 G4]].
      split; [eapply le_trans; eassumption|]. split; [exact I4|]. intros x [ <-|Hx]; [|now apply G4]. cbn.
      apply (good_le _ _ _ _ G1 I4). eapply le_trans; [exact L2|]. eapply le_trans; [apply next_le|exact L4].
  Qed.

  Theorem cgather_ok st : stmt_ok st.
  Proof.
    induction st as [x e|p IH|e p IH|e p1 p2 IH1 IH2|e cs IH|e p IH| | |n ins outs| |n p IH|n] using cst_ind2; intros brk lp l cur s c s' H G B F.
    - injection H as <- <-. destruct G as [I [G1 G2]]. split; [now apply same_le|]. split; [|auto]. apply c_ins_ok; auto. intros y f [[= <- <-]|[]]. exact F.
    - change (cgblock brk p cur s = Some (c, s')) in H. rewrite fair_block in F. exact (block_from p (list_from p IH) _ lp l _ _ _ _ H G B F).
    - rewrite cg_if in H. rewrite fair_if in F. destruct F as [U F]. destruct (c_add cur s) as [ib s1] eqn:A1. destruct (add_good _ _ _ _ _ A1 G) as [L1 [I1 G1]].
      pose proof (good_le _ _ _ _ G I1 L1) as Gc1. destruct (c_add cur s1) as [eb s2] eqn:A2. destruct (add_good _ _ _ _ _ A2 Gc1) as [L2 [I2 G2]].
      pose proof (le_trans _ _ _ L1 L2) as L12. apply obind_some in H. destruct H as [[ia s3] [H3 H]].
      destruct (block_from p (list_from p IH) _ lp l _ _ _ _ H3 (good_le _ _ _ _ G1 I2 L2) (brk_le _ _ _ _ _ B I2 L12) F) as [L3 G3].
      pose proof (le_trans _ _ _ L12 L3) as L13. destruct (c_add cur s3) as [af s4] eqn:A4. destruct (add_good _ _ _ _ _ A4 (good_le _ _ _ _ G (proj1 G3) L13)) as [L4 [I4 G4]].
      apply obind_some in H. destruct H as [fl [_ H]]. injection H as <- <-.
      pose proof (next_good _ _ _ _ (good_le _ _ _ _ G3 I4 L4) G4) as I5.
      pose proof (le_trans _ _ _ L13 L4) as L14. pose proof (le_trans _ _ _ L14 (next_le s4 ia af)) as L15.
      assert (G5 : Good l (c_next s4 ia af) eb).
      { apply (good_le _ _ _ _ G2 I5). eapply le_trans; [exact L3|]. eapply le_trans; [exact L4|apply next_le]. }
      assert (G5a : Good l (c_next s4 ia af) af) by exact (good_le _ _ _ _ G4 I5 (next_le _ _ _)).
      pose proof (next_good _ _ _ _ G5 G5a) as I6. set (s5 := c_next (c_next s4 ia af) eb af) in *.
      pose proof (le_trans _ _ _ L15 (next_le (c_next s4 ia af) eb af)) as L16.
      assert (G6a : Good l s5 af) by exact (good_le _ _ _ _ G5a I6 (next_le _ _ _)).
      assert (I7 : CI (c_end s5 cur (EIf e ib fl ia eb true eb af))).
      { apply (cond_good l); auto.
        - exact (good_le _ _ _ _ G I6 L16).
        - apply (good_le _ _ _ _ G1 I6). eapply le_trans; [exact L2|]. eapply le_trans; [exact L3|]. eapply le_trans; [exact L4|]. eapply le_trans; apply next_le.
        - exact (good_le _ _ _ _ G5 I6 (next_le _ _ _)). }
      split; [eapply le_trans; [exact L16|apply end_le]|]. exact (good_le _ _ _ _ G6a I7 (end_le _ _ _)).
    - rewrite cg_ifelse in H. rewrite fair_ifelse in F. destruct F as [U [F1 F2]]. destruct (c_add cur s) as [ib s1] eqn:A1. destruct (add_good _ _ _ _ _ A1 G) as [L1 [I1 G1]].
      pose proof (good_le _ _ _ _ G I1 L1) as Gc1. destruct (c_add cur s1) as [eb s2] eqn:A2. destruct (add_good _ _ _ _ _ A2 Gc1) as [L2 [I2 G2]].
      pose proof (le_trans _ _ _ L1 L2) as L12. apply obind_some in H. destruct H as [[ia s3] [H3 H]].
      destruct (block_from p1 (list_from p1 IH1) _ lp l _ _ _ _ H3 (good_le _ _ _ _ G1 I2 L2) (brk_le _ _ _ _ _ B I2 L12) F1) as [L3 G3].
      pose proof (le_trans _ _ _ L12 L3) as L13. apply obind_some in H. destruct H as [[ea s4] [H4 H]].
      destruct (block_from p2 (list_from p2 IH2) _ lp l _ _ _ _ H4 (good_le _ _ _ _ G2 (proj1 G3) L3) (brk_le _ _ _ _ _ B (proj1 G3) L13) F2) as [L4 G4].
      pose proof (le_trans _ _ _ L13 L4) as L14.
      destruct (c_add cur s4) as [af s5] eqn:A5. destruct (add_good _ _ _ _ _ A5 (good_le _ _ _ _ G (proj1 G4) L14)) as [L5 [I5 G5]].
      apply obind_some in H. destruct H as [fi [_ H]]. apply obind_some in H. destruct H as [fe [_ H]]. injection H as <- <-.
      pose proof (next_good _ _ _ _ (good_le _ _ _ _ G3 I5 (le_trans _ _ _ L4 L5)) G5) as I6.
      pose proof (le_trans _ _ _ L14 L5) as L15. pose proof (le_trans _ _ _ L15 (next_le s5 ia af)) as L16.
      assert (G6 : Good l (c_next s5 ia af) ea) by (apply (good_le _ _ _ _ G4 I6); eapply le_trans; [exact L5|apply next_le]).
      assert (G6a : Good l (c_next s5 ia af) af) by exact (good_le _ _ _ _ G5 I6 (next_le _ _ _)).
      pose proof (next_good _ _ _ _ G6 G6a) as I7. set (s6 := c_next (c_next s5 ia af) ea af) in *.
      pose proof (le_trans _ _ _ L16 (next_le (c_next s5 ia af) ea af)) as L17.
      assert (G7a : Good l s6 af) by exact (good_le _ _ _ _ G6a I7 (next_le _ _ _)).
      assert (L27 : Le s2 s6).
      { eapply le_trans; [exact L3|]. eapply le_trans; [exact L4|]. eapply le_trans; [exact L5|]. eapply le_trans; apply next_le. }
      assert (I8 : CI (c_end s6 cur (EIf e ib fi ia eb fe ea af))).
      { apply (cond_good l); auto.
        - exact (good_le _ _ _ _ G I7 L17).
        - apply (good_le _ _ _ _ G1 I7). eapply le_trans; [exact L2|exact L27].
        - exact (good_le _ _ _ _ G2 I7 L27). }
      split; [eapply le_trans; [exact L17|apply end_le]|]. exact (good_le _ _ _ _ G7a I8 (end_le _ _ _)).
    - apply cg_switch in H. destruct H as [bs [s2 [fl [H [ -> ->]]]]]. rewrite fair_switch in F. destruct F as [U F].
      destruct (c_add cur s) as [af s1] eqn:A1. destruct (add_good _ _ _ _ _ A1 G) as [L1 [I1 G1]]. cbn [fst snd] in *.
      destruct (cases_ok af cs IH _ lp l _ _ _ _ H (good_le _ _ _ _ G I1 L1) G1 (brk_le _ _ _ _ _ B I1 L1) F) as [L2 [I2 G2]].
      pose proof (le_trans _ _ _ L1 L2) as L12. pose proof (good_le _ _ _ _ G I2 L12) as Gc2. pose proof (good_le _ _ _ _ G1 I2 L2) as Ga2.
      assert (I3 : CI (c_end s2 cur (ESwitch e bs af))).
      { destruct Gc2 as [_ [C1 C2]]. apply c_end_ok; [exact I2|exact C1|]. split; [|split; [|exact Logic.I]].
        - intros x [ <-|Hx]; [destruct Ga2 as [_ [D1 D2]]|destruct (G2 x Hx) as [_ [D1 D2]]]; split; congruence.
        - intros t [ <-|[]]. exact U. }
      split; [eapply le_trans; [exact L12|]; eapply le_trans; [apply end_le|apply state_le]|].
      eapply good_le; [exact Ga2|now apply c_state_ok|]. eapply le_trans; [apply end_le|apply state_le].
    - rewrite cg_while in H. cbv zeta in H. rewrite fair_while in F. destruct F as [U F]. destruct (c_add cur s) as [h s1] eqn:A1. destruct (add_good _ _ _ _ _ A1 G) as [L1 [I1 G1]].
      pose proof (good_le _ _ _ _ G I1 L1) as Gc1. pose proof (next_good _ _ _ _ Gc1 G1) as I2. set (s2 := c_next s1 cur h) in *.
      pose proof (next_le s1 cur h) as L2. fold s2 in L2. pose proof (good_le _ _ _ _ Gc1 I2 L2) as Gc2. pose proof (good_le _ _ _ _ G1 I2 L2) as Gh2.
      destruct (c_add cur s2) as [it s3] eqn:A3. destruct (add_good _ _ _ _ _ A3 Gc2) as [L3 [I3 G3]]. pose proof (good_le _ _ _ _ Gc2 I3 L3) as Gc3.
      destruct (c_add cur s3) as [af s4] eqn:A4. destruct (add_good _ _ _ _ _ A4 Gc3) as [L4 [I4 G4]].
      apply obind_some in H. destruct H as [[il s5] [H5 H]]. injection H as <- <-.
      destruct (block_from p (list_from p IH) _ true l _ _ _ _ H5) as [L5 G5]; [exact (good_le _ _ _ _ G3 I4 L4)|intros _ t [= <-]; exact G4|exact F|].
      set (s6 := c_next (with_g s5 (st_last (c_g s5) af)) il h).
      assert (L24 : Le s2 s4) by (eapply le_trans; [exact L3|exact L4]). pose proof (le_trans _ _ _ L24 L5) as L25.
      assert (Ls : Le s5 (with_g s5 (st_last (c_g s5) af))) by (now apply same_le).
      pose proof (c_last_ok s5 af (proj1 G5)) as I5'.
      assert (I6 : CI s6).
      { apply (next_good l); [exact (good_le _ _ _ _ G5 I5' Ls)|]. apply (good_le _ _ _ _ Gh2 I5'). eapply le_trans; [exact L25|exact Ls]. }
      assert (L56 : Le s5 s6) by (eapply le_trans; [exact Ls|apply next_le]). pose proof (le_trans _ _ _ L25 L56) as L26.
      assert (I7 : CI (c_end s6 h (EWhile e it af))).
      { destruct (good_le _ _ _ _ Gh2 I6 L26) as [_ [C1 C2]]. apply c_end_ok; [exact I6|exact C1|]. split; [|split; [|exact Logic.I]].
        - intros x [ <-|[ <-|[]]].
          + destruct (good_le _ _ _ _ G3 I6) as [_ [D1 D2]]; [eapply le_trans; [exact L4|]; eapply le_trans; [exact L5|exact L56]|]. split; congruence.
          + destruct (good_le _ _ _ _ G4 I6) as [_ [D1 D2]]; [eapply le_trans; [exact L5|exact L56]|]. split; congruence.
        - intros t [ <-|[]]. exact U. }
      assert (LE : Le s6 (c_state (c_end s6 h (EWhile e it af)) h true)) by (eapply le_trans; [apply end_le|apply state_le]). split.
      + eapply le_trans; [exact L1|]. eapply le_trans; [exact L2|]. eapply le_trans; [exact L26|exact LE].
      + eapply good_le; [exact G4|now apply c_state_ok|]. eapply le_trans; [exact L5|]. eapply le_trans; [exact L56|exact LE].
    - destruct brk as [t|]; [rewrite cg_break in H|discriminate]. cbn [fair] in F. pose proof (B F t eq_refl) as Gt. apply some_inj in H.
      set (s1 := c_state (c_next s cur t) t true) in *.
      assert (I1 : CI s1) by (apply c_state_ok; now apply (next_good l)). assert (L1 : Le s s1) by (eapply le_trans; [apply next_le|apply state_le]).
      destruct (add_good _ _ _ _ _ H (good_le _ _ _ _ G I1 L1)) as [L2 [I2 G2]]. split; [exact (le_trans _ _ _ L1 L2)|exact G2].
    - rewrite cg_step in H. destruct (c_add cur s) as [b s1] eqn:A1. destruct (add_good _ _ _ _ _ A1 G) as [L1 [I1 G1]]. injection H as <- <-.
      set (s2 := with_g s1 _). assert (L2 : Le s1 s2) by (now apply same_le).
      assert (I2 : CI s2) by (exact (c_noskip_ok _ b (c_state_ok s1 b true I1))).
      assert (I3 : CI (c_next s2 cur b)).
      { apply (next_good l); [apply (good_le _ _ _ _ G I2); eapply le_trans; eassumption|exact (good_le _ _ _ _ G1 I2 L2)]. }
      split; [eapply le_trans; [exact L1|]; eapply le_trans; [exact L2|apply next_le]|]. apply (good_le _ _ _ _ G1 I3). eapply le_trans; [exact L2|apply next_le].
    - cbn [SubModel.cgather] in H. destruct F as [F1 [F2 F3]]. destruct (cfind n s) as [[top pr]|] eqn:CF; [|discriminate].
      destruct (cfind_ok _ _ _ _ (proj1 G) CF) as [T1 T2].
      set (s0 := c_ins s cur (assign_all ins)) in *. assert (L0 : Le s s0) by (now apply same_le).
      assert (AA : forall l, users l -> forall x e, In (IAssign x e) (assign_all l) -> ~ reg x /\ user e).
      { intros l0 U x e Hx. apply in_map_iff in Hx. destruct Hx as [[x' e'] [[= <- <-] Hx]]. now apply U. }
      assert (I0 : CI s0) by (apply c_ins_ok; [apply G|apply G|now apply AA]).
      destruct (c_add cur s0) as [af s1] eqn:A1. destruct (add_good _ _ _ _ _ A1 (good_le _ _ _ _ G I0 L0)) as [L1 [I1 G1]]. injection H as <- <-.
      set (s1' := c_state s1 af true). assert (L1' : Le s1 s1') by apply state_le. pose proof (c_state_ok s1 af true I1) as I1'. fold s1' in I1'.
      assert (L01 : Le s s1') by (eapply le_trans; [exact L0|]; eapply le_trans; [exact L1|exact L1']).
      destruct (good_le _ _ _ _ G I1' L01) as [_ [C1 C2]]. destruct (good_le _ _ _ _ G1 I1' L1') as [_ [D1 D2]].
      assert (I2 : CI (c_end s1' cur (ECall caller (option_map save (c_sub s1 cur)) 0 top af))).
      { apply c_end_ok; [exact I1'|exact C1|]. split; [intros x []|]. split; [intros t []|]. split; [reflexivity|]. split; [reflexivity|]. split; [congruence|]. split; [exact D1|].
        destruct L01 as [X1 X2]. split; [lia|]. exists n. split; [rewrite X2; [exact T1|exact T2]|]. intros u Hu. apply F3. congruence. }
      assert (L2 : Le s1' (c_end s1' cur (ECall caller (option_map save (c_sub s1 cur)) 0 top af))) by apply end_le.
      set (s2 := c_end s1' cur (ECall caller (option_map save (c_sub s1 cur)) 0 top af)) in *.
      assert (L3 : Le s2 (c_ins s2 af (assign_all outs))) by (now apply same_le).
      pose proof (good_le _ _ _ _ G1 I2 (le_trans _ _ _ L1' L2)) as Ga2.
      assert (I3 : CI (c_ins s2 af (assign_all outs))) by (apply c_ins_ok; [exact I2|apply Ga2|now apply AA]).
      split; [eapply le_trans; [exact L01|]; eapply le_trans; [exact L2|exact L3]|exact (good_le _ _ _ _ Ga2 I3 L3)].
    - cbn [SubModel.cgather] in H. destruct (c_sub s cur) as [t|] eqn:Sc.
      + assert (l = Some t) by (destruct G as [_ [_ G]]; congruence). subst l. set (s0 := c_end s cur (ERet caller [])) in *.
        assert (I0 : CI s0). { apply c_end_ok; [apply G|apply G|]. split; [intros x []|]. split; [intros x []|]. split; [reflexivity|]. rewrite Sc. discriminate. }
        assert (L0 : Le s s0) by apply end_le. destruct (c_add cur s0) as [nb s1] eqn:A1. destruct (add_good _ _ _ _ _ A1 (good_le _ _ _ _ G I0 L0)) as [L1 [I1 G1]].
        injection H as <- <-. split; [eapply le_trans; [exact L0|]; eapply le_trans; [exact L1|apply state_le]|].
        eapply good_le; [exact G1|now apply c_state_ok|apply state_le].
      + injection H as <- <-. destruct G as [I [G1 G2]]. split; [now apply same_le|]. split; [|split; [exact G1|exact G2]]. apply c_ins_ok; auto. intros y f [[=]|[]].
    - rewrite cg_sub in H. rewrite fair_sub in F. destruct (c_sub s cur) as [t|] eqn:Sc; [discriminate|]. assert (l = None) by (destruct G as [_ [_ G]]; congruence). subst l.
      apply obind_some in H. destruct H as [[top s1] [H1 H]]. apply obind_some in H. destruct H as [[a s2] [H2 H]]. injection H as <- <-.
      assert (T : Le s s1 /\ Good (Some n) s1 top).
      { destruct (cfind n s) as [[top' [|]]|] eqn:CF; [discriminate| |].
        - injection H1 as <- <-. destruct (cfind_ok _ _ _ _ (proj1 G) CF) as [T1 T2]. split; [apply le_refl|]. split; [apply G|auto].
        - destruct (add_in_ok (Some n) s (proj1 G)) as [X1 [X2 X3]]. apply some_inj in H1. rewrite H1 in *. auto. }
      destruct T as [L1 G1]. destruct (list_from p IH _ false (Some n) _ _ _ _ H2 G1) as [L2 G2]; [intros [=]|exact F|].
      set (s3 := c_end s2 a (ERet caller [])). assert (L3 : Le s2 s3) by apply end_le.
      assert (I3 : CI s3). { apply c_end_ok; [apply G2|apply G2|]. split; [intros x []|]. split; [intros x []|]. split; [reflexivity|]. destruct G2 as [_ [_ ->]]. discriminate. }
      assert (L4 : Le s3 (c_state s3 top true)) by apply state_le. pose proof (c_state_ok s3 top true I3) as I4.
      assert (L14 : Le s1 (c_state s3 top true)) by (eapply le_trans; [exact L2|]; eapply le_trans; [exact L3|exact L4]).
      destruct (good_le _ _ _ _ G1 I4 L14) as [_ [T1 T2]]. pose proof (cput_ok n top true _ I4 T2 T1) as I5.
      assert (L5 : Le (c_state s3 top true) (cput n top true (c_state s3 top true))) by (now apply same_le).
      assert (LL : Le s (cput n top true (c_state s3 top true))) by (eapply le_trans; [exact L1|]; eapply le_trans; [exact L14|exact L5]).
      split; [exact LL|exact (good_le _ _ _ _ G I5 LL)].
    - cbn [SubModel.cgather] in H. destruct (c_sub s cur) as [t|] eqn:Sc; [discriminate|]. destruct (cfind n s) as [[top' [|]]|] eqn:CF; [discriminate| |].
      + injection H as <- <-. split; [apply le_refl|exact G].
      + destruct (add_in (Some n) s) as [t s1] eqn:A1. injection H as <- <-. destruct (add_in_ok (Some n) s (proj1 G)) as [X1 [X2 X3]]. rewrite A1 in *. cbn in *.
        destruct X3 as [_ [Y1 Y2]]. assert (L2 : Le s1 (cput n t false s1)) by (now apply same_le). pose proof (cput_ok n t false s1 X1 Y2 Y1) as I2.
        split; [eapply le_trans; eassumption|]. apply (good_le _ _ _ _ G I2). eapply le_trans; eassumption.
  Qed.

  Lemma ci0 : CI cgst0.
  Proof.
    assert (B : forall b, b_end (g_blk gst0 b) = ENone /\ b_ins (g_blk gst0 b) = []).
    { intros b. unfold gst0. cbn [g_blk]. unfold set_state, gset. destruct (Nat.eqb b 0); auto. }
    constructor; cbn [c_g cgst0].
    - intros b. unfold okb. cbn [c_g cgst0]. destruct (B b) as [-> ->]. split; [intros x []|]. split; [intros x []|]. split; [intros x e []|exact I].
    - auto.
    - intros n t p [].
    - cbn. lia.
  Qed.
  Theorem cgather_list_ok p c s : cgather_list None p 0 cgst0 = Some (c, s) -> fairs false None p -> CI s /\ c_sub s 0 = None.
  Proof.
    intros H F. destruct (list_from p) with (brk := @None nat) (lp := false) (l := @None nat) (cur := 0) (s := cgst0) (c := c) (s' := s) as [L G]; auto.
    - apply Forall_forall. intros x _. apply cgather_ok.
    - split; [exact ci0|]. cbn. auto.
    - intros _ t [=].
    - split; [apply G|]. destruct L as [_ L]. rewrite L; [reflexivity|cbn; lia].
  Qed.
End G.
