(** One cycle of the machine and the source it follows: the invariant behind FsmRun.follow, for cycles taken one at a time. *)
From Coq Require Import List Bool Arith ZArith Lia.
Import ListNotations.
From Verif Require Import FsmModel FsmEmit FsmLayout FsmGather FsmBody FsmRenum FsmRegion FsmJoin FsmStates FsmArms FsmSource FsmCorrect FsmRun.

(** [I i c]: the machine is in state [i] and what remains to be done in the source is [c]. *)
Record Follows (prog : list stmt) (waits : list expr) (deps0 : list var) (m : fsm) (I : nat -> config -> Prop) : Prop := {
  fo_entry : I (f_entry m) (Run (SStep :: prog) KStop) /\ f_entry m <> 0;
  fo_over : forall c, I 0 c -> over prog c;
  fo_tick : forall i c, I i c -> i <> 0 -> exists c', tick c c' /\ c <> Run [] KStop;
  fo_cycle : forall i c Q D, I i c -> i <> 0 -> agree Q D deps0 -> (forall d x, In d waits -> In x (evars d) -> ~ In x deps0) ->
    exists D' i' c1 c', cycle m Q D i = Some (D', i') /\ tick c c1 /\ silents prog (c1, D) (c', D') /\ I i' c' }.

Theorem follow_step fuel unit deps0 p m : compile fuel unit deps0 p = Some m -> nojumps (gotoss p) p = true -> covereds p = true ->
  exists I, Follows (body unit p) (waitss p) deps0 m I.
Proof.
  intros CP LJ LC. set (prog := body unit p).
  destruct (compile_chain _ _ _ _ _ CP) as [s [g [r CH]]]. destruct (states_ok _ _ _ _ _ _ (h_body _ _ _ _ _ _ _ _ CH) (h_gen _ _ _ _ _ _ _ _ CH) LJ) as [c [ic O]].
  pose proof (o_ren _ _ _ _ _ _ _ O) as REN.
  assert (MS : matchk g (LbOf s) None KStop c ic) by (apply mk_stop; [exact (o_full _ _ _ _ _ _ _ O)|exact (o_end _ _ _ _ _ _ _ O)]).
  assert (LF : forall n x y, LbOf s n x -> LbOf s n y -> x = y) by (unfold LbOf; intros; congruence).
  assert (GT : forall n x, LbOf s n x -> exists l k, find n prog KStop = Some (l, k) /\ At g (LbOf s) x 0 l k /\ b_noskip (g x) = false).
  { intros n0 x Hx. destruct (find n0 prog KStop) as [[l k]|] eqn:E; [|exfalso; revert E; apply find_some; eapply body_labels; [exact (h_body _ _ _ _ _ _ _ _ CH)|exact Hx]].
    destruct (find_ok g (LbOf s) n0) as [_ [FO _]]. destruct (FO _ _ _ _ _ _ _ _ (o_tr _ _ _ _ _ _ _ O) KStop MS l k E) as [y [Y1 [Y2 Y3]]].
    exists l, k. split; [reflexivity|]. rewrite (LF _ _ _ Hx Y1). auto. }
  assert (LT : b_end (g (g_last s)) = ENone \/ b_state (g (g_last s)) = false).
  { destruct (o_last _ _ _ _ _ _ _ O) as [E|E]; [left; rewrite E; exact (o_end _ _ _ _ _ _ _ O)|now right]. }
  assert (ST : forall b i, r_sid r b = Some i -> 1 <= i) by (intros b i H; now apply (n_sid _ _ _ REN) in H).
  assert (WQ : forall w d x n0, b_end (g w) = EWait d x n0 -> In d (waitss p)).
  { intros w d x n0 E. destruct (wof_ok g (LbOf s)) as [_ [W _]].
    destruct (Nat.eq_dec w c) as [ ->|N]; [rewrite (o_end _ _ _ _ _ _ _ O) in E; discriminate|].
    destruct (le_lt_dec (g_next s) w) as [L|L]; [rewrite (o_out _ _ _ _ _ _ _ O w L) in E; discriminate|].
    apply (body_waits unit). eapply (W _ _ _ _ _ _ _ _ (o_tr _ _ _ _ _ _ _ O) ltac:(lia) w); [unfold own2; lia|exact E]. }
  exists (fun i cf => (i = 0 /\ over prog cf) \/ (i <> 0 /\ has_arm m i /\ exists b, r_sid r b = Some i /\ Rel g (LbOf s) b cf)). constructor.
  - pose proof (h_entry _ _ _ _ _ _ _ _ CH) as E. assert (NE : f_entry m <> 0) by (apply ST in E; lia). split; [|exact NE]. right.
    split; [exact NE|]. split; [eapply entry_arm; exact CH|]. exists 0. split; [exact E|].
    eapply rel_run; [apply ch_refl| |constructor|discriminate]. apply (at_here _ _ None). exists 1, (g_next s), c, ic. split; [exact (o_tr _ _ _ _ _ _ _ O)|exact MS].
  - intros cf [[_ H]|[N _]]; [exact H|congruence].
  - intros i cf [[X _]|[_ [_ [b [_ R]]]]] N; [contradiction|].
    inversion R; subst; [|eexists; split; [apply t_while|discriminate]|eexists; split; [apply t_wait|discriminate]]. exists (Run l k). split; assumption.
  - intros i cf Q D0 [[X _]|[Ni [HA [b [Sb Rb]]]]] N AG WT; [contradiction|].
    destruct (cycle_walk _ _ _ _ _ _ _ _ CH LJ LC c ic Q D0 i O AG HA Ni) as [b' [D' [i' [B1 [B2 [B3 B4]]]]]].
    pose proof (n_inj _ _ _ REN _ _ _ Sb B1). subst b'.
    destruct (rel_cycle g (LbOf s) prog fuel (g_last s) r (o_unres _ _ _ _ _ _ _ O) LF (o_lbl _ _ _ _ _ _ _ O) (o_tgt _ _ _ _ _ _ _ O) GT LT ST Q b cf D0 i (D', i') Rb B3) as [cf1 [T [cf' [S1 S2]]]].
    { intros w d x n0 E. apply eval_agree. intros y Hy. symmetry. apply AG. eapply WT; [eapply WQ; exact E|exact Hy]. }
    exists D', i', cf1, cf'. split; [exact B2|]. split; [exact T|]. split; [exact S1|].
    destruct S2 as [S2|[N2 S2]]; [now left|]. right. split; [exact N2|]. split; [destruct B4; [contradiction|assumption]|exact S2].
Qed.
