(** Executions of the machine, and the executions of the source they follow. *)
From Coq Require Import List Bool Arith ZArith Lia.
Import ListNotations.
From Verif Require Import FsmModel FsmEmit FsmLayout FsmGather FsmBody FsmRenum FsmRegion FsmJoin FsmStates FsmArms FsmSource FsmCorrect.

(** [n] clock cycles. [inp t]: values of the registers at the beginning of cycle [t] given the values assigned in the previous cycle: registers keep
    them, inputs change. [pre t]: always_before block. *)
Fixpoint runs (m : fsm) (inp pre : nat -> store -> store) (n : nat) (s : store) : option (store * nat) :=
  match n with
  | O => Some (s, f_entry m)
  | S n' => do (D, i) <- runs m inp pre n' s; cycle m (inp n' D) (pre n' (inp n' D)) i
  end.

(** Variables of an expression, done signals waited for. *)
Fixpoint evars (e : expr) : list var :=
  match e with EC _ => [] | EV x => [x] | EU _ a => evars a | EB _ a b => evars a ++ evars b end.
Fixpoint waits (st : stmt) : list expr :=
  match st with
  | SBlock l => flat_map waits l
  | SIf _ l => flat_map waits l
  | SIfElse _ l1 l2 => flat_map waits l1 ++ flat_map waits l2
  | SSwitch _ cs => flat_map (fun c => flat_map waits (snd c)) cs
  | SWhile _ l => flat_map waits l
  | SJoin d _ => [d]
  | _ => []
  end.
Definition waitss (l : list stmt) : list expr := flat_map waits l.

Lemma eval_agree s s' e : (forall x, In x (evars e) -> s x = s' x) -> eval s e = eval s' e.
Proof.
  induction e as [n|x|f a IH|f a IHa b IHb]; cbn; intros H; [reflexivity|apply H; now left|now rewrite IH|].
  rewrite IHa, IHb; [reflexivity| |]; intros x Hx; apply H; apply in_or_app; auto.
Qed.


Lemma body_labels fuel unit p s : gather_body fuel unit p = Some s -> forall n x, LbOf s n x -> In n (labelss (body unit p)).
Proof.
  unfold gather_body. rewrite body_gather. unfold obind. intros H n x Hn.
  destruct (gather_list fuel None (body unit p) 0 gst0) as [[c s0]|] eqn:GL; [|discriminate].
  destruct (resolve (g_lbl s0) (g_fwd s0) (g_blk s0)) as [g1|] eqn:RS; [|discriminate]. injection H as <-.
  unfold LbOf in Hn. apply assoc_in in Hn.
  destruct (lbl_list fuel (body unit p) (lbl_alls fuel _) _ _ _ _ _ GL n x Hn) as [[]|Y]. exact Y.
Qed.

(** Waits of the graph are waits of the program. *)
Section Waits.
  Variable G : graph.
  Variable Lb : nat -> nat -> Prop.
  Definition wof (ls : list expr) (x : nat) : Prop := forall d w n, b_end (G x) = EWait d w n -> In d ls.
  Lemma wof_next ls b x : nexts G b x -> wof ls b.
  Proof. unfold nexts, wof. intros -> d w n H. discriminate. Qed.
  Lemma wof_app_l a b x : wof a x -> wof (a ++ b) x.
  Proof. intros H d w n E. apply in_or_app. left. eapply H. exact E. Qed.
  Lemma wof_app_r a b x : wof b x -> wof (a ++ b) x.
  Proof. intros H d w n E. apply in_or_app. right. eapply H. exact E. Qed.
  Lemma wof_ok :
    (forall brk st lo hi b i b' i', tr G Lb brk st lo hi b i b' i' -> b < lo -> forall x, own2 lo hi b b' x -> wof (waits st) x) /\
    (forall brk l lo hi b i b' i', trl G Lb brk l lo hi b i b' i' -> b < lo -> forall x, own2 lo hi b b' x -> wof (waitss l) x) /\
    (forall brk l lo hi b i m, trb G Lb brk l lo hi b i m -> b < lo -> forall x, own2 lo hi b m x -> wof (waitss l) x) /\
    (forall brk af cs bs lo hi, trcs G Lb brk af cs bs lo hi -> forall x, lo <= x < hi -> wof (flat_map (fun c => waitss (snd c)) cs) x).
  Proof.
    destruct (tr_exit G Lb) as [X1 [X2 [X3 X4]]]. unfold own2.
    apply tr_mutind.
    - intros; lia.
    - intros; lia.
    - intros brk l lo hi b i m Tr IH. exact IH.
    - intros brk e l lo m b i ia Fb Eb F1 F2 Tr IH Fi Ni Fe Ne Nm Sm L x H. destruct (X3 _ _ _ _ _ _ _ Tr) as [Y1 Y2].
      destruct (Nat.eq_dec x b) as [ ->|N0]; [intros ? ? ? E; congruence|]. destruct (Nat.eq_dec x ia) as [ ->|N1]; [now apply (wof_next _ _ m)|].
      destruct (Nat.eq_dec x (S lo)) as [ ->|N2]; [now apply (wof_next _ _ m)|]. apply IH; lia.
    - intros brk e l1 l2 lo m1 m b i ia ea Fb Eb F1 F2 T1 IH1 Fi Ni T2 IH2 Fe Ne Nm Sm L x H. destruct (X3 _ _ _ _ _ _ _ T1) as [Y1 Y2]. destruct (X3 _ _ _ _ _ _ _ T2) as [Y3 Y4].
      destruct (Nat.eq_dec x b) as [ ->|N0]; [intros ? ? ? E; congruence|]. destruct (Nat.eq_dec x ia) as [ ->|N1]; [now apply (wof_next _ _ m)|].
      destruct (Nat.eq_dec x ea) as [ ->|N2]; [now apply (wof_next _ _ m)|].
      destruct (Nat.eq_dec x lo); [apply wof_app_l; apply IH1; lia|]. destruct (Nat.eq_dec x (S lo)); [apply wof_app_r; apply IH2; lia|].
      destruct (le_lt_dec m1 x); [apply wof_app_r; apply IH2; lia|apply wof_app_l; apply IH1; lia].
    - intros brk e cs bs lo hi b i Fb Eb Tr IH Nm Sm L x H. destruct (Nat.eq_dec x b) as [ ->|N0]; [intros ? ? ? E; congruence|]. apply IH. lia.
    - intros brk e l lo hi b i il Fb Nb Sl Kl Fl El F1 Kf Sa Tr IH Fi Ni L x H. destruct (X3 _ _ _ _ _ _ _ Tr) as [Y1 Y2].
      destruct (Nat.eq_dec x b) as [ ->|N0]; [now apply (wof_next _ _ lo)|]. destruct (Nat.eq_dec x il) as [ ->|N1]; [now apply (wof_next _ _ lo)|].
      destruct (Nat.eq_dec x lo) as [ ->|N2]; [intros ? ? ? E; congruence|]. apply IH; lia.
    - intros t lo b i Fb Nb St F L x H. assert (x = b) by lia. subst. now apply (wof_next _ _ t).
    - intros brk lo b i Fb Nb St K L x H. assert (x = b) by lia. subst. now apply (wof_next _ _ lo).
    - intros brk n lo b i Fb Nb K Hl L x H. assert (x = b) by lia. subst. now apply (wof_next _ _ lo).
    - intros brk n lo b i Fb [Nb|[y [Nb _]]] F L x H; assert (x = b) by lia; subst; [intros ? ? ? E; congruence|now apply (wof_next _ _ y)].
    - intros brk d rb lo b i rest Fb Nb Sl Kl Fl El Sn Kn Hi L x H. assert (O : x = b \/ x = lo) by lia. destruct O as [ ->| ->]; [now apply (wof_next _ _ lo)|].
      intros d' w n E. rewrite El in E. injection E as <- <- <-. now left.
    - intros; lia.
    - intros brk x r0 lo m hi b i b1 i1 b2 i2 T1 IH1 T2 IH2 L y H.
      destruct (X1 _ _ _ _ _ _ _ _ T1) as [Y1 Y2]. destruct (X2 _ _ _ _ _ _ _ _ T2) as [Y3 Y4].
      assert (O : ((y = b \/ lo <= y < m) /\ y <> b1) \/ ((y = b1 \/ m <= y < hi) /\ y <> b2)) by lia.
      destruct O as [O|O]; [apply wof_app_l; apply IH1|apply wof_app_r; apply IH2]; try assumption; lia.
    - intros brk l lo m b i a j Fb Nb F1 Tr IH Fa Na F2 L x H. destruct (X2 _ _ _ _ _ _ _ _ Tr) as [Y1 Y2].
      destruct (Nat.eq_dec x b) as [ ->|N0]; [now apply (wof_next _ _ lo)|]. destruct (Nat.eq_dec x a) as [ ->|N1]; [now apply (wof_next _ _ m)|]. apply IH; lia.
    - intros; lia.
    - intros brk af v l cs bs lo m hi a F Tr IH Fa Na T2 IH2 x Hx. destruct (X3 _ _ _ _ _ _ _ Tr) as [Y1 Y2]. cbn [flat_map snd].
      destruct (le_lt_dec m x); [apply wof_app_r; apply IH2; lia|].
      destruct (Nat.eq_dec x a) as [ ->|N1]; [now apply (wof_next _ _ af)|]. apply wof_app_l. apply IH; lia.
  Qed.
End Waits.

Lemma body_waits unit p d : In d (waitss (body unit p)) <-> In d (waitss p).
Proof. unfold body, waitss. destruct unit; cbn; [now rewrite app_nil_r|tauto]. Qed.

(** Hypotheses on a program and on its always_before block. *)
Record Legal (deps0 : list var) (pre : nat -> store -> store) (p : list stmt) : Prop := {
  l_jump : nojumps (gotoss p) p = true;
  l_cover : covereds p = true;
  l_pre : forall t s x, ~ In x deps0 -> pre t s x = s x;
  l_wait : forall d x, In d (waitss p) -> In x (evars d) -> ~ In x deps0
}.

Section Follow.
  Variables (fuel : nat) (unit : bool) (deps0 : list var) (p : list stmt) (m : fsm).
  Variables inp pre : nat -> store -> store.
  Hypothesis CP : compile fuel unit deps0 p = Some m.
  Hypothesis LG : Legal deps0 pre p.
  Notation prog := (body unit p).
  Definition env (t : nat) (s : store) : store := pre t (inp t s).

  Theorem follow n s0 : exists D i cf, runs m inp pre n s0 = Some (D, i) /\
    reach prog env n (Run (SStep :: prog) KStop, s0) (cf, D) /\ (i = 0 -> over prog cf) /\ (i <> 0 -> exists cf', tick cf cf' /\ cf <> Run [] KStop).
  Proof.
    destruct (compile_chain _ _ _ _ _ CP) as [s [g [r CH]]]. destruct (states_ok _ _ _ _ _ _ (h_body _ _ _ _ _ _ _ _ CH) (h_gen _ _ _ _ _ _ _ _ CH) (l_jump _ _ _ LG)) as [c [ic O]].
    pose proof (o_ren _ _ _ _ _ _ _ O) as REN.
    assert (MS : matchk g (LbOf s) None KStop c ic) by (apply mk_stop; [exact (o_full _ _ _ _ _ _ _ O)|exact (o_end _ _ _ _ _ _ _ O)]).
    assert (LF : forall n x y, LbOf s n x -> LbOf s n y -> x = y) by (unfold LbOf; intros; congruence).
    assert (GT : forall n x, LbOf s n x -> exists l k, find n prog KStop = Some (l, k) /\ At g (LbOf s) x 0 l k /\ b_noskip (g x) = false).
    { intros n0 x Hx. destruct (find n0 prog KStop) as [[l k]|] eqn:E; [|exfalso; revert E; apply find_some; eapply body_labels; [exact (h_body _ _ _ _ _ _ _ _ CH)|exact Hx]].
      destruct (find_ok g (LbOf s) n0) as [_ [FO _]]. destruct (FO _ _ _ _ _ _ _ _ (o_tr _ _ _ _ _ _ _ O) KStop MS l k E) as [y [Y1 [Y2 Y3]]].
      exists l, k. split; [reflexivity|]. rewrite (LF _ _ _ Hx Y1). auto. }
    assert (LT : b_end (g (g_last s)) = ENone \/ b_state (g (g_last s)) = false).
    { destruct (o_last _ _ _ _ _ _ _ O) as [E|E]; [left; rewrite E; exact (o_end _ _ _ _ _ _ _ O)|now right]. }
    assert (ST : forall b i, r_sid r b = Some i -> 1 <= i) by (intros b i H; now apply (n_sid _ _ _ REN) in H).
    assert (WQ : forall w d x n0, b_end (g w) = EWait d x n0 -> In d (waitss p)).
    { intros w d x n0 E. destruct (wof_ok g (LbOf s)) as [_ [W _]].
      destruct (Nat.eq_dec w c) as [ ->|N]; [rewrite (o_end _ _ _ _ _ _ _ O) in E; discriminate|].
      destruct (le_lt_dec (g_next s) w) as [L|L]; [rewrite (o_out _ _ _ _ _ _ _ O w L) in E; discriminate|].
      apply (body_waits unit). eapply (W _ _ _ _ _ _ _ _ (o_tr _ _ _ _ _ _ _ O) ltac:(lia) w); [unfold own2; lia|exact E]. }
    set (RR := Rel g (LbOf s)).
    assert (INV : exists D i cf, runs m inp pre n s0 = Some (D, i) /\ reach prog env n (Run (SStep :: prog) KStop, s0) (cf, D) /\
       ((i = 0 /\ over prog cf) \/ (i <> 0 /\ has_arm m i /\ exists b, r_sid r b = Some i /\ RR b cf))).
    { induction n as [|n [D [i [cf [R1 [R2 R3]]]]]].
      - exists s0, (f_entry m), (Run (SStep :: prog) KStop). split; [reflexivity|]. split; [constructor; apply ss_refl|]. right.
        pose proof (h_entry _ _ _ _ _ _ _ _ CH) as E. split; [apply ST in E; lia|]. split; [eapply entry_arm; exact CH|]. exists 0. split; [exact E|].
        eapply rel_run; [apply ch_refl| |constructor|discriminate]. apply (at_here _ _ None). exists 1, (g_next s), c, ic. split; [exact (o_tr _ _ _ _ _ _ _ O)|exact MS].
      - cbn [runs]. rewrite R1. unfold obind. set (Q := inp n D). set (D0 := pre n Q).
        destruct R3 as [[ -> Ov]|[Ni [HA [b [Sb Rb]]]]].
        + exists D0, 0, (Run [] KStop). split; [reflexivity|]. split.
          * destruct Ov as [cf1 [[ ->|T] H]].
            -- eapply re_S with (c := Run [] KStop) (s := D); [|constructor|apply ss_refl].
               clear - R2 H. inversion R2; subst; [constructor; eapply silents_trans; [eassumption|apply H]|eapply re_S; [eassumption|eassumption|eapply silents_trans; [eassumption|apply H]]].
            -- eapply re_S; [exact R2|exact T|apply H].
          * left. split; [reflexivity|]. exists (Run [] KStop). split; [now left|]. intros; apply ss_refl.
        + assert (AG : agree Q D0 deps0) by (intros x Hx; unfold D0; now apply (l_pre _ _ _ LG)).
          destruct (cycle_walk _ _ _ _ _ _ _ _ CH (l_jump _ _ _ LG) (l_cover _ _ _ LG) c ic Q D0 i O AG HA Ni) as [b' [D' [i' [B1 [B2 [B3 B4]]]]]].
          pose proof (n_inj _ _ _ REN _ _ _ Sb B1). subst b'.
          destruct (rel_cycle g (LbOf s) prog fuel (g_last s) r (o_unres _ _ _ _ _ _ _ O) LF (o_lbl _ _ _ _ _ _ _ O) (o_tgt _ _ _ _ _ _ _ O) GT LT ST Q b cf D0 i (D', i') Rb B3) as [cf1 [T [cf' [S1 S2]]]].
          { intros w d x n0 E. apply eval_agree. intros y Hy. symmetry. apply (l_pre _ _ _ LG). eapply (l_wait _ _ _ LG); [eapply WQ; exact E|exact Hy]. }
          exists D', i', cf'. split; [exact B2|]. split; [eapply re_S; [exact R2|exact T|exact S1]|].
          destruct S2 as [S2|[N2 S2]]; [now left|]. right. split; [exact N2|]. split; [destruct B4; [contradiction|assumption]|exact S2]. }
    destruct INV as [D [i [cf [R1 [R2 R3]]]]]. exists D, i, cf. split; [exact R1|]. split; [exact R2|]. split.
    - intros ->. destruct R3 as [[_ R3]|[X _]]; [exact R3|contradiction].
    - intros N. destruct R3 as [[X _]|[_ [_ [b [_ R]]]]]; [contradiction|].
      inversion R; subst; [|eexists; split; [apply t_while|discriminate]|eexists; split; [apply t_wait|discriminate]].
      exists (Run l k). split; assumption.
  Qed.
End Follow.
