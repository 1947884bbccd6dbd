(** Declarations: the code written for the states. *)
From Coq Require Import List Bool Arith ZArith Lia.
Import ListNotations.
From Verif Require Import FsmModel FsmEmit FsmLayout FsmGather FsmBody FsmRenum FsmRegion FsmJoin FsmStates FsmArms FsmRun InitModel InitRuns InitView.

(** * Two pieces of code doing the same *)
Definition sim (P : store -> Prop) (d d' : list var) (c c' : list vst) (e e' : list var) : Prop :=
  forall Q Q' D D' i, eqs Q Q' -> eqs D D' -> P D -> agree Q D d -> agree Q' D' d' ->
    eqp (vexecs Q c (D, i)) (vexecs Q' c' (D', i)) /\ agree Q (fst (vexecs Q c (D, i))) e /\ agree Q' (fst (vexecs Q' c' (D', i))) e'.
Definition any (_ : store) : Prop := True.

Lemma sim_nil d d' : sim any d d' [] [] d d'.
Proof. intros Q Q' D D' i H1 H2 _ A A'. split; [split; [exact H2|reflexivity]|]. now split. Qed.
Lemma sim_app P d d' c1 c1' d1 d1' c2 c2' e e' : sim P d d' c1 c1' d1 d1' -> sim any d1 d1' c2 c2' e e' -> sim P d d' (c1 ++ c2) (c1' ++ c2') e e'.
Proof.
  intros H1 H2 Q Q' D D' i EQ ED HP A A'. rewrite !vexecs_app. destruct (H1 Q Q' D D' i EQ ED HP A A') as [[E1 E2] [B B']].
  destruct (vexecs Q c1 (D, i)) as [D1 i1]. destruct (vexecs Q' c1' (D', i)) as [D1' i1']. cbn [fst snd] in *. subst i1'. exact (H2 Q Q' D1 D1' i1 EQ E1 I B B').
Qed.
Lemma sim_more P d d' c c' e e' f f' : sim P d d' c c' e e' -> incl e f -> incl e' f' -> sim P d d' c c' f f'.
Proof. intros H I1 I2 Q Q' D D' i EQ ED HP A A'. destruct (H Q Q' D D' i EQ ED HP A A') as [E [B B']]. split; [exact E|]. split; eapply agree_mono; eassumption. Qed.
Lemma sim_any P d d' c c' e e' : sim any d d' c c' e e' -> sim P d d' c c' e e'.
Proof. intros H Q Q' D D' i EQ ED _. now apply H. Qed.
Lemma sim_idx d d' n : sim any d d' [VIdx n] [VIdx n] d d'.
Proof. intros Q Q' D D' i EQ ED _ A A'. cbn. split; [split; [exact ED|reflexivity]|]. now split. Qed.
Lemma sim_if d d' e a a' b b' ea ea' eb eb' : sim any d d' a a' ea ea' -> sim any d d' b b' eb eb' ->
  sim any d d' [VIf (rewrite d e) a b] [VIf (rewrite d' e) a' b'] (d ++ ea ++ eb) (d' ++ ea' ++ eb').
Proof.
  intros H1 H2 Q Q' D D' i EQ ED _ A A'. cbn [vexecs]. rewrite !vexec_if. cbn [fst]. rewrite (veval_rewrite Q D d e A), (veval_rewrite Q' D' d' e A'), <- (eqs_eval _ _ e ED).
  destruct (truth (eval D e)).
  - destruct (H1 Q Q' D D' i EQ ED I A A') as [E [B B']]. split; [exact E|]. split; eapply agree_mono; try eassumption; apply incl_appr, incl_appl, incl_refl.
  - destruct (H2 Q Q' D D' i EQ ED I A A') as [E [B B']]. split; [exact E|]. split; eapply agree_mono; try eassumption; apply incl_appr, incl_appr, incl_refl.
Qed.
Lemma sim_wait d d' e i_n iw : sim any d d' [VIf (rewrite [] e) [VIdx i_n] [VIdx iw]] [VIf (rewrite [] e) [VIdx i_n] [VIdx iw]] d d'.
Proof.
  intros Q Q' D D' i EQ ED _ A A'. cbn [vexecs]. rewrite !vexec_if. cbn [fst]. rewrite !veval_Q, <- (eqs_eval _ _ e EQ).
  destruct (truth (eval Q e)); cbn; (split; [split; [exact ED|reflexivity]|]; now split).
Qed.

(** Cases of a switch. *)
Definition csim (d d' : list var) (bs bs' : list (option Z * list vst)) (e e' : list var) : Prop :=
  Forall2 (fun b b' => fst b = fst b' /\ sim any d d' (snd b) (snd b') (d ++ e) (d' ++ e')) bs bs'.
Lemma pick_case_two {A B} (R : A -> B -> Prop) v (bs : list (option Z * A)) (bs' : list (option Z * B)) : Forall2 (fun b b' => fst b = fst b' /\ R (snd b) (snd b')) bs bs' ->
  match pick_case v bs, pick_case v bs' with Some a, Some a' => R a a' | None, None => True | _, _ => False end.
Proof.
  induction 1 as [|[o a] [o' a'] bs bs' [H1 H2] _ IH]; cbn [pick_case]; [exact I|]. cbn in H1. subst o'. destruct o as [z|]; [|exact IH]. destruct (Z.eqb z v); [exact H2|exact IH].
Qed.
Lemma pick_default_two {A B} (R : A -> B -> Prop) (bs : list (option Z * A)) (bs' : list (option Z * B)) : Forall2 (fun b b' => fst b = fst b' /\ R (snd b) (snd b')) bs bs' ->
  match pick_default bs, pick_default bs' with Some a, Some a' => R a a' | None, None => True | _, _ => False end.
Proof.
  induction 1 as [|[o a] [o' a'] bs bs' [H1 H2] _ IH]; cbn [pick_default]; [exact I|]. cbn in H1. subst o'. destruct o as [z|]; [exact IH|exact H2].
Qed.
Lemma sim_case d d' e bs bs' f f' : csim d d' bs bs' f f' -> sim any d d' [VCase (rewrite d e) bs] [VCase (rewrite d' e) bs'] (d ++ f) (d' ++ f').
Proof.
  intros H Q Q' D D' i EQ ED _ A A'. cbn [vexecs]. rewrite !vexec_case. cbn [fst]. rewrite (veval_rewrite Q D d e A), (veval_rewrite Q' D' d' e A'), <- (eqs_eval _ _ e ED).
  unfold pick. pose proof (pick_case_two (fun c c' => sim any d d' c c' (d ++ f) (d' ++ f')) (eval D e) bs bs' H) as P1. pose proof (pick_default_two (fun c c' => sim any d d' c c' (d ++ f) (d' ++ f')) bs bs' H) as P2.
  destruct (pick_case (eval D e) bs) as [a|], (pick_case (eval D e) bs') as [a'|]; try contradiction; [exact (P1 Q Q' D D' i EQ ED I A A')|].
  destruct (pick_default bs) as [a|], (pick_default bs') as [a'|]; try contradiction; [exact (P2 Q Q' D D' i EQ ED I A A')|].
  split; [split; [exact ED|reflexivity]|]. cbn. split; eapply agree_mono; try eassumption; apply incl_appl, incl_refl.
Qed.
Lemma csim_more d d' bs bs' e e' f f' : csim d d' bs bs' e e' -> incl e f -> incl e' f' -> csim d d' bs bs' f f'.
Proof.
  intros H I1 I2. induction H as [|b b' bs bs' [H1 H2] _ IH]; constructor; [|exact IH]. split; [exact H1|].
  eapply sim_more; [exact H2| |]; apply incl_app; try (apply incl_appl, incl_refl); now apply incl_appr.
Qed.

(** * Writing the blocks *)
Section Emit.
  Variables (g h : graph) (r : rst) (ffi ffi' : nat -> option nat).
  Variable P0 : store -> Prop.
  Hypothesis hend : forall x, b_end (h x) = b_end (g x).
  Hypothesis hstate : forall x, b_state (h x) = b_state (g x).
  Hypothesis hffi : forall x i, x <> 0 -> b_state (g x) = true -> ffi x = Some i -> ffi' x = Some i.
  Hypothesis pl : forall x, plain g x.
  Hypothesis nz : forall x, pos g x.
  Definition pre_of (b : nat) : store -> Prop := if Nat.eqb b 0 then P0 else any.
  Hypothesis hins : forall x D D' i, eqs D D' -> pre_of x D -> eqp (exec_ins (b_ins (g x)) (D, i)) (exec_ins (b_ins (h x)) (D', i)).

  Lemma child_nz b x : In (Some x) (children (b_end (g b))) -> x <> 0.
  Proof. intros H ->. exact (nz b H). Qed.
  Lemma pre_nz b : b <> 0 -> pre_of b = any.
  Proof. intros N. unfold pre_of. now destruct (Nat.eqb_spec b 0). Qed.

  Lemma ins_sim b d d' c1 d1 : write_ins (b_ins (g b)) d = (c1, d1) -> exists c1' d1', write_ins (b_ins (h b)) d' = (c1', d1') /\ sim (pre_of b) d d' c1 c1' d1 d1'.
  Proof.
    intros W. destruct (write_ins (b_ins (h b)) d') as [c1' d1'] eqn:W'. exists c1', d1'. split; [reflexivity|]. intros Q Q' D D' i EQ ED HP A A'.
    destruct (write_ins_ok Q _ _ _ _ D i W A) as [_ [V1 G1]]. destruct (write_ins_ok Q' _ _ _ _ D' i W' A') as [_ [V2 G2]].
    rewrite V1, V2. split; [|now split]. now apply hins.
  Qed.
  Lemma write_incl b d c1 d1 : write_ins (b_ins b) d = (c1, d1) -> incl d d1.
  Proof. intros W. exact (proj1 (write_ins_ok (fun _ => 0%Z) _ _ _ _ (fun _ => 0%Z) 0 W (fun x _ => eq_refl))). Qed.

  Definition emits (f : nat) : Prop := forall entry stop b d d' c e q, (b = 0 -> stop = None) -> emit g r ffi f entry stop b d = Some (c, e, q) ->
    exists c' e', emit h r ffi' f entry stop b d' = Some (c', e', q) /\ sim (pre_of b) d d' c c' e e'.

  Lemma goto_sim x d d' c e q : x <> 0 -> b_state (g x) = true -> goto_state ffi x d = Some (c, e, q) ->
    exists c' e', goto_state ffi' x d' = Some (c', e', q) /\ sim any d d' c c' e e'.
  Proof.
    intros N S. unfold goto_state. intros H. apply obind_some in H. destruct H as [i [H1 H2]]. injection H2 as <- <- <-. rewrite (hffi x i N S H1). cbn [obind].
    eexists. eexists. split; [reflexivity|]. apply sim_idx.
  Qed.
  Lemma follow_sim f stop x d d' c e q : emits f -> x <> 0 -> FsmEmit.follow g r ffi f stop x d = Some (c, e, q) ->
    exists c' e', FsmEmit.follow h r ffi' f stop x d' = Some (c', e', q) /\ sim any d d' c c' e e'.
  Proof.
    intros IH N H. unfold FsmEmit.follow in *. rewrite hstate. destruct (b_state (g x)) eqn:S; [now apply goto_sim|].
    destruct (match stop with Some t => Nat.eqb x t | None => false end).
    - injection H as <- <- <-. eexists. eexists. split; [reflexivity|]. apply sim_nil.
    - rewrite <- (pre_nz x N). apply IH; [congruence|exact H].
  Qed.

  Lemma emit_sim f : emits f.
  Proof.
    induction f as [|f IH]; intros entry stop b d d' c e q B0 H; cbn [emit] in *; [discriminate|]. rewrite hstate.
    destruct (entry && match stop with Some _ => true | None => false end && b_state (g b)) eqn:En.
    { apply andb_true_iff in En. destruct En as [En Sb]. apply andb_true_iff in En. destruct En as [_ En].
      assert (N : b <> 0) by (intros ->; rewrite (B0 eq_refl) in En; discriminate). rewrite (pre_nz b N). now apply goto_sim. }
    destruct (write_ins (b_ins (g b)) d) as [c1 d1] eqn:W. destruct (ins_sim b d d' c1 d1 W) as [c1' [d1' [W' S1]]]. rewrite W', hend.
    pose proof (pl b) as PL. unfold plain in PL. pose proof (child_nz b) as CN.
    destruct (b_end (g b)) as [|[x|]|te ib fi it eb fe et af|te cs af|te it af|te w nx|cc sv cid go rt|cc rets] eqn:Eb; try contradiction; try discriminate.
    - injection H as <- <- <-. eexists. eexists. split; [reflexivity|]. eapply sim_app; [exact S1|apply sim_idx].
    - apply obind_some in H. destruct H as [[[c2 d2] q2] [H2 H]]. injection H as <- <- <-.
      destruct (follow_sim f stop x d1 d1' c2 d2 q2 IH (CN x ltac:(now left)) H2) as [c2' [d2' [E2 S2]]].
      unfold FsmEmit.follow in E2. rewrite E2. cbn [obind]. eexists. eexists. split; [reflexivity|]. eapply sim_app; eassumption.
    - assert (Nib : ib <> 0) by (apply CN; now left). assert (Neb : eb <> 0) by (apply CN; right; now left). assert (Naf : af <> 0) by (apply CN; right; right; now left).
      apply obind_some in H. destruct H as [[[ci di] qi] [Hi H]].
      apply obind_some in H. destruct H as [[[ci2 di2] qi2] [Hi2 H]].
      apply obind_some in H. destruct H as [[[ce de] qe] [He H]].
      apply obind_some in H. destruct H as [[[ce2 de2] qe2] [He2 H]].
      destruct (IH true (Some af) ib d1 d1' ci di qi ltac:(congruence) Hi) as [ci' [di' [Ei Si]]]. rewrite (pre_nz ib Nib) in Si. rewrite Ei. cbn [obind].
      destruct (IH true (Some af) eb d1 d1' ce de qe ltac:(congruence) He) as [ce' [de' [Ee Se]]]. rewrite (pre_nz eb Neb) in Se.
      rewrite hstate.
      assert (KI : exists ci2' di2', (if dead r et && negb (dead r it) && negb (b_state (g af)) then do (c, d, q) <- emit h r ffi' f true stop af di'; Some (ci' ++ c, d, qi ++ q) else Some (ci', di', qi)) = Some (ci2', di2', qi2)
        /\ sim any d1 d1' ci2 ci2' di2 di2').
      { destruct (dead r et && negb (dead r it) && negb (b_state (g af))).
        - apply obind_some in Hi2. destruct Hi2 as [[[c3 d3] q3] [H3 E3]]. injection E3 as <- <- <-.
          destruct (IH true stop af di di' c3 d3 q3 ltac:(congruence) H3) as [c3' [d3' [E3 S3]]]. rewrite (pre_nz af Naf) in S3. rewrite E3. cbn [obind].
          eexists. eexists. split; [reflexivity|]. eapply sim_app; eassumption.
        - injection Hi2 as <- <- <-. eexists. eexists. split; [reflexivity|exact Si]. }
      destruct KI as [ci2' [di2' [EI SI]]]. rewrite EI. cbn [obind]. rewrite Ee. cbn [obind].
      assert (KE : exists ce2' de2', (if dead r it && negb (dead r et) && negb (b_state (g af)) then do (c, d, q) <- emit h r ffi' f true stop af de'; Some (ce' ++ c, d, qe ++ q) else Some (ce', de', qe)) = Some (ce2', de2', qe2)
        /\ sim any d1 d1' ce2 ce2' de2 de2').
      { destruct (dead r it && negb (dead r et) && negb (b_state (g af))).
        - apply obind_some in He2. destruct He2 as [[[c3 d3] q3] [H3 E3]]. injection E3 as <- <- <-.
          destruct (IH true stop af de de' c3 d3 q3 ltac:(congruence) H3) as [c3' [d3' [E3 S3]]]. rewrite (pre_nz af Naf) in S3. rewrite E3. cbn [obind].
          eexists. eexists. split; [reflexivity|]. eapply sim_app; eassumption.
        - injection He2 as <- <- <-. eexists. eexists. split; [reflexivity|exact Se]. }
      destruct KE as [ce2' [de2' [EE SE]]]. rewrite EE. cbn [obind].
      assert (KC : sim (pre_of b) d d' (c1 ++ [VIf (rewrite d1 te) ci2 ce2]) (c1' ++ [VIf (rewrite d1' te) ci2' ce2']) (d1 ++ di2 ++ de2) (d1' ++ di2' ++ de2')).
      { eapply sim_app; [exact S1|]. now apply sim_if. }
      destruct (b_state (g af)) eqn:Saf; [injection H as <- <- <-; eexists; eexists; split; [reflexivity|exact KC]|].
      destruct ((dead r et && negb (dead r it)) || (dead r it && negb (dead r et))); [injection H as <- <- <-; eexists; eexists; split; [reflexivity|exact KC]|].
      apply obind_some in H. destruct H as [[[c4 d4] q4] [H4 H]]. injection H as <- <- <-.
      destruct (follow_sim f stop af (d1 ++ di2 ++ de2) (d1' ++ di2' ++ de2') c4 d4 q4 IH Naf) as [c4' [d4' [E4 S4]]]; [unfold FsmEmit.follow; rewrite Saf; exact H4|].
      unfold FsmEmit.follow in E4. rewrite hstate, Saf in E4. rewrite E4. cbn [obind]. eexists. eexists. split; [reflexivity|]. eapply sim_app; eassumption.
    - apply obind_some in H. destruct H as [[[bs d2] q2] [H2 H]].
      assert (Naf : af <> 0) by (apply CN; cbn; apply in_or_app; right; now left).
      assert (Ncs : forall x, In x (map snd cs) -> x <> 0).
      { intros x Hx. apply CN. cbn. apply in_or_app. left. apply in_map_iff in Hx. destruct Hx as [z [Z1 Z2]]. apply in_map_iff. exists z. split; [congruence|exact Z2]. }
      assert (KB : exists bs' d2', (fix all (cs : list (option Z * nat)) : option (list (option Z * list vst) * list var * list nat) :=
                match cs with
                | [] => Some ([], [], [])
                | (v, cb) :: cs' =>
                    do (c, d, q) <- emit h r ffi' f true (Some af) cb d1';
                    do (bs, d', q') <- all cs';
                    Some ((v, c) :: bs, d ++ d', q ++ q')
                end) cs = Some (bs', d2', q2) /\ csim d1 d1' bs bs' d2 d2').
      { clear H PL CN Eb. revert bs d2 q2 H2. induction cs as [|[v cb] cs IHc]; intros bs d2 q2 H2.
        - injection H2 as <- <- <-. exists [], []. split; [reflexivity|constructor].
        - apply obind_some in H2. destruct H2 as [[[ca da] qa] [Ha H2]]. apply obind_some in H2. destruct H2 as [[[bs0 d0] q0] [Hb H2]].
          injection H2 as <- <- <-. assert (Ncb : cb <> 0) by (apply Ncs; now left).
          destruct (IH true (Some af) cb d1 d1' ca da qa ltac:(congruence) Ha) as [ca' [da' [Ea Sa]]]. rewrite (pre_nz cb Ncb) in Sa.
          destruct (IHc (fun x I => Ncs x (or_intror I)) bs0 d0 q0 Hb) as [bs0' [d0' [Eb Sb]]]. rewrite Ea. cbn [obind]. rewrite Eb. cbn [obind].
          eexists. eexists. split; [reflexivity|]. constructor.
          + cbn [fst snd]. split; [reflexivity|]. eapply sim_more; [exact Sa| |]; apply incl_appr, incl_appl, incl_refl.
          + eapply csim_more; [exact Sb| |]; apply incl_appr, incl_refl. }
      destruct KB as [bs' [d2' [EB SB]]]. rewrite EB. cbn [obind]. rewrite hstate.
      assert (KC : sim (pre_of b) d d' (c1 ++ [VCase (rewrite d1 te) bs]) (c1' ++ [VCase (rewrite d1' te) bs']) (d1 ++ d2) (d1' ++ d2')).
      { eapply sim_app; [exact S1|]. now apply sim_case. }
      destruct (b_state (g af)) eqn:Saf; [injection H as <- <- <-; eexists; eexists; split; [reflexivity|exact KC]|].
      apply obind_some in H. destruct H as [[[c4 d4] q4] [H4 H]]. injection H as <- <- <-.
      destruct (follow_sim f stop af (d1 ++ d2) (d1' ++ d2') c4 d4 q4 IH Naf) as [c4' [d4' [E4 S4]]]; [unfold FsmEmit.follow; rewrite Saf; exact H4|].
      unfold FsmEmit.follow in E4. rewrite hstate, Saf in E4. rewrite E4. cbn [obind]. eexists. eexists. split; [reflexivity|]. eapply sim_app; eassumption.
    - assert (Nit : it <> 0) by (apply CN; now left). assert (Naf : af <> 0) by (apply CN; right; now left).
      apply obind_some in H. destruct H as [[[ci di] qi] [Hi H]]. apply obind_some in H. destruct H as [[[ce de] qe] [He H]]. injection H as <- <- <-.
      destruct (IH true (Some af) it d1 d1' ci di qi ltac:(congruence) Hi) as [ci' [di' [Ei Si]]]. rewrite (pre_nz it Nit) in Si. rewrite Ei. cbn [obind]. rewrite hstate.
      assert (KE : exists ce' de', (if b_state (g af) then goto_state ffi' af d1' else emit h r ffi' f true stop af d1') = Some (ce', de', qe) /\ sim any d1 d1' ce ce' de de').
      { destruct (b_state (g af)) eqn:Saf; [now apply goto_sim|]. rewrite <- (pre_nz af Naf). apply IH; [congruence|exact He]. }
      destruct KE as [ce' [de' [Ee Se]]]. rewrite Ee. cbn [obind]. eexists. eexists. split; [reflexivity|]. eapply sim_app; [exact S1|]. now apply sim_if.
    - apply obind_some in H. destruct H as [iw [Hw H]]. apply obind_some in H. destruct H as [i_n [Hx H]]. injection H as <- <- <-. destruct PL as [P1 P2].
      rewrite (hffi w iw (CN w ltac:(now left)) P1 Hw), (hffi nx i_n (CN nx ltac:(right; now left)) P2 Hx). cbn [obind].
      eexists. eexists. split; [reflexivity|]. eapply sim_app; [exact S1|apply sim_wait].
  Qed.
End Emit.

(** Jumps only go to children of blocks, never to the first block. *)
Section Nz.
  Variables (g : graph) (r : rst) (ffi : nat -> option nat).
  Hypothesis pl : forall x, plain g x.
  Hypothesis nz : forall x, pos g x.
  Notation ok := (fun x : nat => x <> 0).

  Definition nzs (f : nat) : Prop := forall entry stop b d c e q, (b = 0 -> stop = None) -> emit g r ffi f entry stop b d = Some (c, e, q) -> Forall ok q.
  Lemma goto_nz x d c e q : x <> 0 -> goto_state ffi x d = Some (c, e, q) -> Forall ok q.
  Proof. unfold goto_state. intros N H. apply obind_some in H. destruct H as [i [_ H]]. injection H as <- <- <-. constructor; [exact N|constructor]. Qed.
  Lemma follow_nz f stop x d c e q : nzs f -> x <> 0 -> FsmEmit.follow g r ffi f stop x d = Some (c, e, q) -> Forall ok q.
  Proof.
    intros IH N. unfold FsmEmit.follow. destruct (b_state (g x)); [now apply goto_nz|]. destruct (match stop with Some t => Nat.eqb x t | None => false end).
    - intros [= <- <- <-]. constructor.
    - intros H. apply (IH _ _ _ _ _ _ _ (fun E => match N E with end) H).
  Qed.
  Lemma emit_nz f : nzs f.
  Proof.
    induction f as [|f IH]; intros entry stop b d c e q B0 H; cbn [emit] in *; [discriminate|].
    destruct (entry && match stop with Some _ => true | None => false end && b_state (g b)) eqn:En.
    { apply andb_true_iff in En. destruct En as [En Sb]. apply andb_true_iff in En. destruct En as [_ En].
      assert (N : b <> 0) by (intros ->; rewrite (B0 eq_refl) in En; discriminate). now apply (goto_nz b d c e). }
    assert (IHn : forall entry stop b d c e q, b <> 0 -> emit g r ffi f entry stop b d = Some (c, e, q) -> Forall ok q).
    { intros en st x d0 c0 e0 q0 N. apply IH. congruence. }
    destruct (write_ins (b_ins (g b)) d) as [c1 d1] eqn:W.
    pose proof (pl b) as PL. unfold plain in PL. pose proof (child_nz g nz b) as CN.
    destruct (b_end (g b)) as [|[x|]|te ib fi it eb fe et af|te cs af|te it af|te w nx|cc sv cid go rt|cc rets] eqn:Eb; try contradiction; try discriminate.
    - injection H as <- <- <-. constructor.
    - apply obind_some in H. destruct H as [[[c2 d2] q2] [H2 H]]. injection H as <- <- <-.
      apply (follow_nz f stop x d1 c2 d2 q2 IH (CN x ltac:(now left))). exact H2.
    - assert (Nib : ib <> 0) by (apply CN; now left). assert (Neb : eb <> 0) by (apply CN; right; now left). assert (Naf : af <> 0) by (apply CN; right; right; now left).
      apply obind_some in H. destruct H as [[[ci di] qi] [Hi H]].
      apply obind_some in H. destruct H as [[[ci2 di2] qi2] [Hi2 H]].
      apply obind_some in H. destruct H as [[[ce de] qe] [He H]].
      apply obind_some in H. destruct H as [[[ce2 de2] qe2] [He2 H]].
      apply (IHn _ _ _ _ _ _ _ Nib) in Hi. apply (IHn _ _ _ _ _ _ _ Neb) in He.
      assert (K1 : Forall ok qi2).
      { destruct (dead r et && negb (dead r it) && negb (b_state (g af))); [|injection Hi2 as <- <- <-; exact Hi].
        apply obind_some in Hi2. destruct Hi2 as [[[c3 d3] q3] [H3 E3]]. injection E3 as <- <- <-. apply Forall_app. split; [exact Hi|]. exact (IHn _ _ _ _ _ _ _ Naf H3). }
      assert (K2 : Forall ok qe2).
      { destruct (dead r it && negb (dead r et) && negb (b_state (g af))); [|injection He2 as <- <- <-; exact He].
        apply obind_some in He2. destruct He2 as [[[c3 d3] q3] [H3 E3]]. injection E3 as <- <- <-. apply Forall_app. split; [exact He|]. exact (IHn _ _ _ _ _ _ _ Naf H3). }
      assert (K3 : Forall ok (qi2 ++ qe2)) by (apply Forall_app; now split).
      destruct (b_state (g af)) eqn:Saf; [injection H as <- <- <-; exact K3|].
      destruct ((dead r et && negb (dead r it)) || (dead r it && negb (dead r et))); [injection H as <- <- <-; exact K3|].
      apply obind_some in H. destruct H as [[[c4 d4] q4] [H4 H]]. injection H as <- <- <-. apply Forall_app. split; [exact K1|]. apply Forall_app. split; [exact K2|].
      apply (follow_nz f stop af (d1 ++ di2 ++ de2) c4 d4 q4 IH Naf). unfold FsmEmit.follow. rewrite Saf. exact H4.
    - apply obind_some in H. destruct H as [[[bs d2] q2] [H2 H]].
      assert (Naf : af <> 0) by (apply CN; cbn; apply in_or_app; right; now left).
      assert (Ncs : forall x, In x (map snd cs) -> x <> 0).
      { intros x Hx. apply CN. cbn. apply in_or_app. left. apply in_map_iff in Hx. destruct Hx as [z [Z1 Z2]]. apply in_map_iff. exists z. split; [congruence|exact Z2]. }
      assert (KB : Forall ok q2).
      { clear H PL CN Eb. revert bs d2 q2 H2. induction cs as [|[v cb] cs IHc]; intros bs d2 q2 H2.
        - injection H2 as <- <- <-. constructor.
        - apply obind_some in H2. destruct H2 as [[[ca da] qa] [Ha H2]]. apply obind_some in H2. destruct H2 as [[[bs0 d0] q0] [Hb H2]].
          injection H2 as <- <- <-. apply Forall_app. split; [exact (IHn _ _ _ _ _ _ _ (Ncs cb (or_introl eq_refl)) Ha)|].
          exact (IHc (fun x I => Ncs x (or_intror I)) bs0 d0 q0 Hb). }
      destruct (b_state (g af)) eqn:Saf; [injection H as <- <- <-; exact KB|].
      apply obind_some in H. destruct H as [[[c4 d4] q4] [H4 H]]. injection H as <- <- <-. apply Forall_app. split; [exact KB|].
      apply (follow_nz f stop af (d1 ++ d2) c4 d4 q4 IH Naf). unfold FsmEmit.follow. rewrite Saf. exact H4.
    - assert (Nit : it <> 0) by (apply CN; now left). assert (Naf : af <> 0) by (apply CN; right; now left).
      apply obind_some in H. destruct H as [[[ci di] qi] [Hi H]]. apply obind_some in H. destruct H as [[[ce de] qe] [He H]]. injection H as <- <- <-.
      apply Forall_app. split; [exact (IHn _ _ _ _ _ _ _ Nit Hi)|]. destruct (b_state (g af)); [exact (goto_nz _ _ _ _ _ Naf He)|exact (IHn _ _ _ _ _ _ _ Naf He)].
    - apply obind_some in H. destruct H as [iw [Hw H]]. apply obind_some in H. destruct H as [i_n [Hx H]]. injection H as <- <- <-.
      constructor; [apply CN; right; now left|]. constructor; [apply CN; now left|constructor].
  Qed.
End Nz.
