(** Variables never read before being written in a cycle: their value at the start of a cycle does not matter. *)
From Coq Require Import List Bool Arith ZArith Lia.
Import ListNotations.
From Verif Require Import FsmModel FsmEmit FsmLayout FsmGather FsmBody FsmRenum FsmRegion FsmJoin FsmStates FsmArms FsmRun AccModel AccBfs AccDom.

(** Same values, except on [T]. *)
Definition same (T : var -> bool) (s s2 : store) : Prop := forall y, T y = false -> s y = s2 y.

Lemma exec_ins_idx l : forall s s2 : store * nat, snd s = snd s2 -> snd (exec_ins l s) = snd (exec_ins l s2).
Proof. induction l as [|[x e|] l IH]; intros s s2 H; cbn; [exact H| |]; apply IH; cbn; auto. Qed.

Lemma exec_same (P : var -> Prop) rest l : forall s s2 : store * nat,
  (forall y, fst s y = fst s2 y \/ (P y /\ ~ early y (map ins_access l ++ rest))) ->
  forall y, fst (exec_ins l s) y = fst (exec_ins l s2) y \/ (P y /\ ~ early y rest /\ ~ wrote (map ins_access l) y).
Proof.
  induction l as [|[x e|] l IH]; intros s s2 H y; cbn [exec_ins map app ins_access].
  - destruct (H y) as [K|[K1 K2]]; [now left|right]. split; [exact K1|]. split; [exact K2|]. intros [a [[] _]].
  - assert (E : eval (fst s) e = eval (fst s2) e).
    { apply eval_agree. intros z Hz. destruct (H z) as [K|[_ K]]; [exact K|]. exfalso. apply K. apply early_here. exact Hz. }
    set (s' := (upd (fst s) x (eval (fst s) e), snd s)). set (s2' := (upd (fst s2) x (eval (fst s2) e), snd s2)).
    destruct (Nat.eq_dec y x) as [ ->|N].
    + destruct (IH s' s2') with (y := x) as [K|[K1 [K2 K3]]]; [|now left|].
      * intros z. unfold s', s2', upd. cbn [fst]. destruct (Nat.eqb_spec z x) as [ ->|N]; [left; exact E|].
        destruct (H z) as [K|[K1 K2]]; [now left|right]. split; [exact K1|]. intros X. apply K2. apply early_next; [|exact X]. cbn. intros [Y|[]]. congruence.
      * (* written here: its values are the same all along *)
        destruct (IH s' s2') with (y := x) as [K|[K4 [K5 K6]]]; [|now left|].
        -- intros z. unfold s', s2', upd. cbn [fst]. destruct (Nat.eqb_spec z x) as [ ->|N]; [left; exact E|].
           destruct (H z) as [K|[K4 K5]]; [now left|right]. split; [exact K4|]. intros X. apply K5. apply early_next; [|exact X]. cbn. intros [Y|[]]. congruence.
        -- left. clear IH K1 K2 K4 K5 K6.
           assert (ES : forall l (a b : store * nat), ~ wrote (map ins_access l) x -> fst a x = fst b x -> fst (exec_ins l a) x = fst (exec_ins l b) x).
           { clear. induction l as [|[z f|] l IH]; intros a b Nw Ex; cbn [exec_ins]; [exact Ex| |].
             - apply IH; [intros [k [J1 J2]]; apply Nw; exists k; split; [now right|exact J2]|]. cbn [fst]. unfold upd. destruct (Nat.eqb_spec x z) as [ ->|N]; [|exact Ex].
               exfalso. apply Nw. exists (evars f, [z]). cbn. auto.
             - apply IH; [intros [k [J1 J2]]; apply Nw; exists k; split; [now right|exact J2]|exact Ex]. }
           apply ES; [exact K3|]. unfold s', s2', upd. cbn [fst]. rewrite Nat.eqb_refl. exact E.
    + destruct (IH s' s2') with (y := y) as [K|[K1 [K2 K3]]]; [|now left|].
      * intros z. unfold s', s2', upd. cbn [fst]. destruct (Nat.eqb_spec z x) as [ ->|Nz]; [left; exact E|].
        destruct (H z) as [K|[K1 K2]]; [now left|right]. split; [exact K1|]. intros X. apply K2. apply early_next; [|exact X]. cbn. intros [Y|[]]. congruence.
      * right. split; [exact K1|]. split; [exact K2|]. intros [a [[ <-|A1] A2]]; [cbn in A2; destruct A2 as [A2|[]]; congruence|]. apply K3. now exists a.
  - destruct (IH (fst s, 0) (fst s2, 0)) with (y := y) as [K|[K1 [K2 K3]]]; [|now left|].
    + intros z. cbn [fst]. destruct (H z) as [K|[K1 K2]]; [now left|right]. split; [exact K1|]. intros X. apply K2. apply early_next; [intros []|exact X].
    + right. split; [exact K1|]. split; [exact K2|]. intros [a [[ <-|A1] A2]]; [destruct A2|]. apply K3. now exists a.
Qed.

Scheme walk_go_mut := Minimality for walk Sort Prop with go_walk_mut := Minimality for go Sort Prop.
Combined Scheme walk_go_ind from walk_go_mut, go_walk_mut.

Section Same.
  Variable g : graph.
  Variable J : nat -> nat -> Prop.
  Variables Q Q2 : store.
  Variable T : var -> bool.
  Variable h : nat.
  Notation acc := (fun b => blk_access (g b)).
  Hypothesis PL : forall x, plain g x.
  Hypothesis JF : forall x i j, J x i -> J x j -> i = j.
  Hypothesis QQ : same T Q Q2.
  Hypothesis WT : forall b e w n x, b_end (g b) = EWait e w n -> In x (evars e) -> T x = false.
  Hypothesis ND : forall x c, T x = true -> clean g acc h x c -> ~ early x (acc c).

  Definition K (b : nat) (s s2 : store * nat) : Prop := snd s = snd s2 /\ forall y, fst s y = fst s2 y \/ (T y = true /\ clean g acc h y b).
  Definition Out (s s2 : store * nat) : Prop := snd s = snd s2 /\ same T (fst s) (fst s2).

  Definition tst (b : nat) : list access := match b_end (g b) with EIf e _ _ _ _ _ _ _ | ESwitch e _ _ | EWhile e _ _ => [(evars e, [])] | _ => [] end.
  Lemma acc_eq b : acc b = map ins_access (b_ins (g b)) ++ tst b.
  Proof. reflexivity. Qed.

  Lemma K_block b s s2 : K b s s2 -> snd (exec_ins (b_ins (g b)) s) = snd (exec_ins (b_ins (g b)) s2) /\
    forall y, fst (exec_ins (b_ins (g b)) s) y = fst (exec_ins (b_ins (g b)) s2) y \/ (T y = true /\ clean g acc h y b /\ ~ early y (tst b) /\ ~ wrote (acc b) y).
  Proof.
    intros [H1 H2]. split; [now apply exec_ins_idx|]. intros y.
    destruct (exec_same (fun y => T y = true /\ clean g acc h y b) (tst b) (b_ins (g b)) s s2) with (y := y) as [E|[[E1 E2] [E3 E4]]].
    - intros z. destruct (H2 z) as [E|[E1 E2]]; [now left|right]. split; [auto|]. rewrite <- acc_eq. now apply ND.
    - now left.
    - right. split; [exact E1|]. split; [exact E2|]. split; [exact E3|]. rewrite acc_eq. intros [a [A1 A2]]. apply in_app_or in A1. destruct A1 as [A1|A1]; [apply E4; now exists a|].
      unfold tst in A1. destruct (b_end (g b)); cbn in A1; try tauto; destruct A1 as [ <-|[]]; destruct A2.
  Qed.
  Lemma K_out b s s2 : K b s s2 -> same T (fst (exec_ins (b_ins (g b)) s)) (fst (exec_ins (b_ins (g b)) s2)).
  Proof. intros H y Ny. destruct (K_block _ _ _ H) as [_ E]. destruct (E y) as [X|[X _]]; [exact X|congruence]. Qed.
  Lemma K_eval b e s s2 : K b s s2 -> tst b = [(evars e, [])] -> eval (fst (exec_ins (b_ins (g b)) s)) e = eval (fst (exec_ins (b_ins (g b)) s2)) e.
  Proof.
    intros H Te. destruct (K_block _ _ _ H) as [_ E]. apply eval_agree. intros x Hx. destruct (E x) as [X|[_ [_ [X _]]]]; [exact X|]. exfalso. apply X. rewrite Te. now apply early_here.
  Qed.
  (** Arrival in a block, or in a state. *)
  Definition KG (x : nat) (s s2 : store * nat) : Prop := snd s = snd s2 /\ same T (fst s) (fst s2) /\ (b_state (g x) = false -> K x s s2).
  Lemma K_next b x s s2 : K b s s2 -> edge g b x -> KG x (exec_ins (b_ins (g b)) s) (exec_ins (b_ins (g b)) s2).
  Proof.
    intros H E. destruct (K_block _ _ _ H) as [I S]. split; [exact I|]. split; [now apply K_out|]. intros Sx. split; [exact I|]. intros y.
    destruct (S y) as [X|[X1 [X2 [X3 X4]]]]; [now left|right]. split; [exact X1|]. eapply clean_step; [exact X2|exact X4|exact E|exact Sx].
  Qed.

  Lemma edge_if b e ib fi it eb fe et af (c : bool) : b_end (g b) = EIf e ib fi it eb fe et af -> edge g b (if c then ib else eb).
  Proof. unfold edge. intros ->. destruct c; cbn; auto. Qed.
  Lemma edge_switch b e cs af v : b_end (g b) = ESwitch e cs af -> edge g b (match pick v cs with Some x => x | None => af end).
  Proof.
    unfold edge. intros ->. cbn. apply in_or_app. destruct (pick v cs) as [x|] eqn:P; [left|right; now left]. apply pick_in in P. apply in_map_iff in P.
    destruct P as [k [ <- P]]. apply in_map_iff. now exists k.
  Qed.
  Lemma edge_while b e it af (c : bool) : b_end (g b) = EWhile e it af -> edge g b (if c then it else af).
  Proof. unfold edge. intros ->. destruct c; cbn; auto. Qed.

  Lemma walk_same :
    (forall b s s', walk g J Q b s s' -> forall s2 s2', walk g J Q2 b s2 s2' -> K b s s2 -> Out s' s2') /\
    (forall x s s', go g J Q x s s' -> forall s2 s2', go g J Q2 x s2 s2' -> KG x s s2 -> Out s' s2').
  Proof.
    apply (walk_go_ind g J Q).
    - intros b s E s2 s2' W2 H. inversion W2; subst; try congruence. split; [reflexivity|now apply K_out].
    - intros b x s s' E _ IH s2 s2' W2 H. inversion W2; subst; try congruence. match goal with E' : b_end (g b) = ENext _ |- _ => rewrite E in E'; injection E' as <- end.
      eapply IH; [eassumption|]. apply K_next; [exact H|]. unfold edge. rewrite E. now left.
    - intros b e ib fi it eb fe et af s s' E _ IH s2 s2' W2 H. inversion W2; subst; try congruence. match goal with E' : b_end (g b) = EIf _ _ _ _ _ _ _ _ |- _ => rewrite E in E'; injection E' as <- <- <- <- <- <- <- <- end.
      assert (Te : tst b = [(evars e, [])]) by (unfold tst; now rewrite E).
      rewrite (K_eval b e s s2 H Te) in IH. eapply IH; [eassumption|]. apply K_next; [exact H|]. eapply edge_if. exact E.
    - intros b e cs af s s' E _ IH s2 s2' W2 H. inversion W2; subst; try congruence. match goal with E' : b_end (g b) = ESwitch _ _ _ |- _ => rewrite E in E'; injection E' as <- <- <- end.
      assert (Te : tst b = [(evars e, [])]) by (unfold tst; now rewrite E).
      rewrite (K_eval b e s s2 H Te) in IH. eapply IH; [eassumption|]. apply K_next; [exact H|]. eapply edge_switch. exact E.
    - intros b e it af s s' E _ IH s2 s2' W2 H. inversion W2; subst; try congruence. match goal with E' : b_end (g b) = EWhile _ _ _ |- _ => rewrite E in E'; injection E' as <- <- <- end.
      assert (Te : tst b = [(evars e, [])]) by (unfold tst; now rewrite E).
      rewrite (K_eval b e s s2 H Te) in IH. eapply IH; [eassumption|]. apply K_next; [exact H|]. eapply edge_while. exact E.
    - intros b e w n s i E Ji s2 s2' W2 H. inversion W2; subst; try congruence. match goal with E' : b_end (g b) = EWait _ _ _ |- _ => rewrite E in E'; injection E' as <- <- <- end.
      assert (X : eval Q e = eval Q2 e) by (apply eval_agree; intros x Hx; apply QQ; eapply WT; eassumption). rewrite X in Ji.
      split; [cbn; eapply JF; eassumption|now apply K_out].
    - intros b c sv cid x rt s i E. pose proof (PL b) as P. unfold plain in P. rewrite E in P. destruct P.
    - intros b c rets x sv s i E. pose proof (PL b) as P. unfold plain in P. rewrite E in P. destruct P.
    - intros b c rets s E. pose proof (PL b) as P. unfold plain in P. rewrite E in P. destruct P.
    - intros x s i Sx Ji s2 s2' W2 [H1 [H2 _]]. inversion W2; subst; try congruence. split; [cbn; eapply JF; eassumption|exact H2].
    - intros x s s' Sx _ IH s2 s2' W2 [H1 [H2 H3]]. inversion W2; subst; try congruence. eapply IH; [eassumption|now apply H3].
  Qed.
End Same.

(** * Runs of the machine *)
Section Runs.
  Variables (fuel : nat) (unit : bool) (deps0 : list var) (p : list stmt) (m : fsm).
  Hypothesis CP : compile fuel unit deps0 p = Some m.
  Hypothesis NJ : nojumps (gotoss p) p = true.
  Hypothesis CV : covereds p = true.
  Variables (t0 t : acct).
  Hypothesis AC : body_access fuel unit p t0 = Some t.

  (** Reads found: every variable read in a cycle before being written in that cycle. *)
  Lemma heads_in s g r c ic h i : Good fuel (body unit p) s g r c ic -> r_sid r h = Some i -> In h (heads g r).
  Proof.
    intros O Hi. destruct (n_sid _ _ _ (o_ren _ _ _ _ _ _ _ O) h i Hi) as [V [S _]]. unfold heads. apply filter_In. split; [exact V|now rewrite S, Hi].
  Qed.

  Lemma reads_found s g r c ic h i x b : Good fuel (body unit p) s g r c ic -> gather_body fuel unit p = Some s -> generate_states fuel s = Some (g, r) ->
    r_sid r h = Some i -> clean g (fun b => blk_access (g b)) h x b -> early x (blk_access (g b)) -> In x (a_in t).
  Proof.
    intros O GB GS Hi Cl Er. unfold body_access, obind in AC. rewrite GB, GS in AC.
    destruct (access_heads_in g _ _ _ _ _ h AC (heads_in _ _ _ _ _ _ _ O Hi)) as [t1 [t2 [H1 H2]]]. apply H2.
    assert (St : b_state (g b) = false \/ b = h) by (destruct Cl; auto).
    destruct (n_sid _ _ _ (o_ren _ _ _ _ _ _ _ O) h i Hi) as [_ [Sh _]].
    eapply (access_head_ok g (fun b => blk_access (g b)) h x); [|now left|exact H1|exact Cl|exact St|exact Er].
    intros y p1 p2 Sy Ny V1 E1 V2 E2. eapply (good_dom fuel unit p s g r c ic h i O NJ Hi); eassumption.
  Qed.

  (** Two runs of the machine. Inputs and always_before blocks may differ on [T] and only on [T]. *)
  Variable T : var -> bool.
  Hypothesis TI : forall x, T x = true -> ~ In x (a_in t).
  Hypothesis WT : forall d x, In d (waitss p) -> In x (evars d) -> T x = false.
  Variables inp pre inp2 pre2 : nat -> store -> store.
  Hypothesis HI : forall n s s2, same T s s2 -> same T (inp n s) (inp2 n s2).
  Hypothesis HP : forall n s s2, same T s s2 -> same T (pre n s) (pre2 n s2).
  Hypothesis P1 : forall n s x, ~ In x deps0 -> pre n s x = s x.
  Hypothesis P2 : forall n s x, ~ In x deps0 -> pre2 n s x = s x.

  Theorem runs_same n s s2 : same T s s2 -> exists D D2 i, runs m inp pre n s = Some (D, i) /\ runs m inp2 pre2 n s2 = Some (D2, i) /\ same T D D2 /\ (i = 0 \/ has_arm m i).
  Proof.
    intros Sm. destruct (compile_chain _ _ _ _ _ CP) as [st [g [r CH]]].
    pose proof (h_body _ _ _ _ _ _ _ _ CH) as GB. pose proof (h_gen _ _ _ _ _ _ _ _ CH) as GS.
    destruct (states_ok fuel unit p st g r GB GS NJ) as [c [ic O]].
    induction n as [|n IH]; cbn [runs].
    - exists s, s2, (f_entry m). split; [reflexivity|]. split; [reflexivity|]. split; [exact Sm|right; eapply entry_arm; exact CH].
    - destruct IH as [D [D2 [i [R1 [R2 [SD Hi]]]]]]. unfold obind. rewrite R1, R2.
      set (Q := inp n D). set (Q2 := inp2 n D2). pose proof (HI n D D2 SD) as SQ. fold Q Q2 in SQ. pose proof (HP n Q Q2 SQ) as SP.
      destruct (Nat.eq_dec i 0) as [ ->|Ni]; [exists (pre n Q), (pre2 n Q2), 0; unfold cycle; cbn; auto|].
      destruct Hi as [Hi|Hi]; [contradiction|].
      assert (A1 : agree Q (pre n Q) deps0) by (intros x Hx; now apply P1).
      assert (A2 : agree Q2 (pre2 n Q2) deps0) by (intros x Hx; now apply P2).
      destruct (cycle_walk _ _ _ _ _ _ _ _ CH NJ CV c ic Q (pre n Q) i O A1 Hi Ni) as [b [D' [i' [B1 [C1 [W1 Hi']]]]]].
      destruct (cycle_walk _ _ _ _ _ _ _ _ CH NJ CV c ic Q2 (pre2 n Q2) i O A2 Hi Ni) as [b2 [D2' [i2 [B2 [C2 [W2 _]]]]]].
      assert (b2 = b) by (eapply (n_inj _ _ _ (o_ren _ _ _ _ _ _ _ O)); eassumption). subst b2.
      destruct (walk_same g (Jmp fuel g r (g_last st)) Q Q2 T b (all_plain _ _ _ _ _ _ c ic O)) as [WS _].
      + intros x j k H1 H2. unfold Jmp in *. congruence.
      + exact SQ.
      + intros y e w nn x Ey Hx. apply (WT e x); [|exact Hx].
        destruct (wof_ok g (LbOf st)) as [_ [WO _]].
        assert (X : wof g (waitss (body unit p)) y).
        { destruct (Nat.eq_dec y c) as [ ->|N]; [intros d w' n' E; rewrite (o_end _ _ _ _ _ _ _ O) in E; discriminate|].
          destruct (le_lt_dec (g_next st) y) as [L|L]; [intros d w' n' E; rewrite (o_out _ _ _ _ _ _ _ O y L) in E; discriminate|].
          apply (WO _ _ _ _ _ _ _ _ (o_tr _ _ _ _ _ _ _ O)); [lia|unfold own2; lia]. }
        apply body_waits with unit. eapply X. exact Ey.
      + intros x b' Tx Cl Er. apply (TI x Tx). eapply reads_found; eassumption.
      + destruct (WS _ _ _ W1 _ _ W2) as [E1 E2].
        * split; [reflexivity|]. intros y. cbn [fst].
          destruct (T y) eqn:Ty; [right; split; [reflexivity|apply clean_h]|left; now apply SP].
        * cbn [fst snd] in E1, E2. subst i2. exists D', D2', i'. auto.
  Qed.
End Runs.
