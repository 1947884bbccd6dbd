(** The machine and the source, one cycle at a time: the executions of a program without goto are in lockstep with [after] (FsmTimeSem.v). *)
From Coq Require Import List Bool Arith ZArith Lia.
Import ListNotations.
From Verif Require Import FsmModel FsmEmit FsmLayout FsmGather FsmBody FsmRenum FsmRegion FsmJoin FsmStates FsmArms FsmSource FsmRun FsmTimeStatic FsmTimeSem FsmTimeSim.

Lemma tgt_self fuel g c' y : tgt fuel g c' y -> b_state (g c') = false -> y = c'.
Proof. unfold tgt. intros H E. rewrite E in H. congruence. Qed.

Section Lock.
  Variables (fuel : nat) (unit : bool) (deps0 : list var) (p : list stmt) (m : fsm).
  Variables inp pre : nat -> store -> store.
  Hypothesis CP : compile fuel unit deps0 p = Some m.
  Hypothesis LG : Legal deps0 pre p.
  Hypothesis NG : gotoss p = [].
  Notation prog := (body unit p).
  Notation envp := (env inp pre).

  Theorem lockstep n s0 : exists D i cf, runs m inp pre n s0 = Some (D, i) /\
    after envp n (Run (SStep :: prog) KStop, s0) (cf, D) /\ (exists c2, tick cf c2) /\ (i = 0 -> done cf) /\ (i <> 0 -> cf <> Run [] KStop).
  Proof.
    destruct (compile_chain _ _ _ _ _ CP) as [s [g [r CH]]]. destruct (states_ok _ _ _ _ _ _ (h_body _ _ _ _ _ _ _ _ CH) (h_gen _ _ _ _ _ _ _ _ CH) (l_jump _ _ _ LG)) as [c [ic O]].
    pose proof (o_ren _ _ _ _ _ _ _ O) as REN. set (V := fun b => In b (r_vis r)).
    pose proof (timed_ok _ _ _ _ _ _ _ _ (h_body _ _ _ _ _ _ _ _ CH) (h_gen _ _ _ _ _ _ _ _ CH) NG O) as TX. fold V in TX.
    assert (MS : matchk g (LbOf s) V None KStop c ic) by (apply mk_stop; [exact (o_full _ _ _ _ _ _ _ O)|exact (o_end _ _ _ _ _ _ _ O)]).
    assert (NB : gotoss prog = []).
    { destruct (gotoss prog) as [|x l] eqn:E; [reflexivity|]. exfalso. assert (H : In x (gotoss prog)) by (rewrite E; now left). apply body_gotos in H. rewrite NG in H. exact H. }
    assert (NL : forall n x, LbOf s n x -> b_state (g x) = false).
    { intros n0 x Hx. destruct (b_state (g x)) eqn:E; [|reflexivity]. exfalso. pose proof (o_lbl _ _ _ _ _ _ _ O _ _ Hx E) as H. rewrite NB in H. exact H. }
    assert (LT : b_end (g (g_last s)) = ENone \/ b_state (g (g_last s)) = false).
    { destruct (o_last _ _ _ _ _ _ _ O) as [E|E]; [left; rewrite E; exact (o_end _ _ _ _ _ _ _ O)|now right]. }
    assert (ST : forall b i, r_sid r b = Some i -> 1 <= i /\ V b) by (intros b i H; apply (n_sid _ _ _ REN) in H; unfold V; tauto).
    assert (VT : forall b z, V b -> child g b z -> b_state (g z) = false -> V z).
    { intros b z Vb Hc Hz. destruct (n_child _ _ _ REN b (Some z) Vb Hc) as [c' [[= <-] [y [Ty Vy]]]]. rewrite (tgt_self _ _ _ _ Ty Hz) in Vy. exact Vy. }
    assert (WQ : forall w d x n0, b_end (g w) = EWait d x n0 -> In d (waitss p)).
    { intros w d x n0 E. destruct (wof_ok g (LbOf s)) as [_ [W _]].
      destruct (Nat.eq_dec w c) as [ ->|N]; [rewrite (o_end _ _ _ _ _ _ _ O) in E; discriminate|].
      destruct (le_lt_dec (g_next s) w) as [L|L]; [rewrite (o_out _ _ _ _ _ _ _ O w L) in E; discriminate|].
      apply (body_waits unit). eapply (W _ _ _ _ _ _ _ _ (o_tr _ _ _ _ _ _ _ O) ltac:(lia) w); [unfold own2; lia|exact E]. }
    set (RR := Rel g (LbOf s) V).
    assert (TK : forall i cf, M g (LbOf s) V r i cf -> exists c2, tick cf c2).
    { intros i cf [[_ [ ->|[l1 [k1 [T _]]]]]|[_ [b [_ R]]]]; [eexists; apply t_stop|eauto|]. inversion R; subst; [eauto|eexists; apply t_while|eexists; apply t_wait]. }
    assert (INV : exists D i cf, runs m inp pre n s0 = Some (D, i) /\ after envp n (Run (SStep :: prog) KStop, s0) (cf, D) /\
       (i = 0 \/ has_arm m i) /\ M g (LbOf s) V r i cf).
    { induction n as [|n [D [i [cf [R1 [R2 [HA R3]]]]]]].
      - exists s0, (f_entry m), (Run (SStep :: prog) KStop). split; [reflexivity|]. split; [constructor|].
        pose proof (h_entry _ _ _ _ _ _ _ _ CH) as E. split; [right; eapply entry_arm; exact CH|]. right. split; [apply ST in E; lia|]. exists 0. split; [exact E|].
        eapply rel_run; [apply ch_refl| |constructor|discriminate]. apply (at_here _ _ _ None). exists 1, (g_next s), c, ic. split; [exact TX|exact MS].
      - cbn [runs]. rewrite R1. unfold obind. set (Q := inp n D). set (D0 := pre n Q).
        destruct R3 as [[ -> Ov]|[Ni [b [Sb Rb]]]].
        + exists D0, 0, (Run [] KStop). split; [reflexivity|]. split.
          * destruct Ov as [ ->|[l1 [k1 [T H]]]]; (eapply af_S; [exact R2| | |eexists; apply t_stop]).
            -- apply t_stop.
            -- apply mv_refl.
            -- exact T.
            -- now apply nothing_moves.
          * split; [now left|]. left. split; [reflexivity|now left].
        + destruct HA as [HA|HA]; [contradiction|].
          assert (AG : agree Q D0 deps0) by (intros x Hx; unfold D0; now apply (l_pre _ _ _ LG)).
          destruct (cycle_walk _ _ _ _ _ _ _ _ CH (l_jump _ _ _ LG) (l_cover _ _ _ LG) c ic Q D0 i O AG HA Ni) as [b' [D' [i' [B1 [B2 [B3 B4]]]]]].
          pose proof (n_inj _ _ _ REN _ _ _ Sb B1). subst b'.
          destruct (rel_cycle g (LbOf s) V fuel (g_last s) r NL LT ST VT Q b cf D0 i (D', i') (proj2 (ST _ _ Sb)) Rb B3) as [cf1 [T [cf' [S1 S2]]]].
          { intros w d x n0 E. apply eval_agree. intros y Hy. symmetry. apply (l_pre _ _ _ LG). eapply (l_wait _ _ _ LG); [eapply WQ; exact E|exact Hy]. }
          exists D', i', cf'. split; [exact B2|]. split; [eapply af_S; [exact R2|exact T|exact S1|exact (TK _ _ S2)]|]. split; [exact B4|exact S2]. }
    destruct INV as [D [i [cf [R1 [R2 [HA R3]]]]]]. exists D, i, cf. split; [exact R1|]. split; [exact R2|]. split; [exact (TK _ _ R3)|].
    split.
    - intros ->. destruct R3 as [[_ R3]|[X _]]; [exact R3|contradiction].
    - intros N. destruct R3 as [[X _]|[_ [b [_ R]]]]; [contradiction|]. inversion R; subst; [assumption|discriminate|discriminate].
  Qed.
End Lock.
