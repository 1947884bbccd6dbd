(** Pipelines in algorithms: when no item is fed, pipelines end up being drained. *)
From Coq Require Import List Bool Arith Lia.
Import ListNotations.
From Verif Require Import PfModel PfProofs.

Section Live.
  Context {A : Type}.
  Variables (P : pipeline) (fw : nat) (B : beh A).
  Hypothesis OK : stages_ok P B.

  Definition input (n : nat) (q : pst A) (s : nat) : bool := if Nat.eqb s 0 then o_go B n else code_full P B n q (s - 1) && negb (stall P B n q (s - 1)).
  (** The stage can be started. *)
  Definition accepts (n : nat) (q : pst A) (s : nat) : bool :=
    ready P q s && (Nat.eqb (S s) (p_num P) || negb (code_full P B n q s && negb (started P fw B n q (S s)))) && negb (stall P B n q s).

  Lemma step_started n q :
    (forall s, s < p_num P -> started P fw B n q s = accepts n q s && input n q s) /\
    (forall s, s < p_num P -> r_idx (step P fw B n q) s = if started P fw B n q s then p_entry P s else code_idx P B n q s) /\
    (forall s, S s < p_num P -> r_full (step P fw B n q) s = code_full P B n q s && negb (started P fw B n q (S s))).
  Proof.
    destruct (step_eq P fw B n q) as (F & F0 & F1 & F2 & F3 & _). destruct OK as (O1 & O2 & O3).
    assert (St : forall s, s < p_num P -> started P fw B n q s = F s).
    { intros s L; unfold started; rewrite F2. destruct (F s) eqn:E.
      - rewrite (F1 s) in E by assumption. repeat (apply andb_true_iff in E as [E ?]). rewrite Nat.eqb_refl, E. cbn [andb]. now rewrite andb_true_r.
      - unfold ready, code_idx. destruct (Nat.eqb_spec (r_idx q s) 0) as [Z|Z].
        + destruct (Nat.eqb_spec 0 (p_entry P s)) as [K|_]; [destruct (O1 s); now rewrite K|reflexivity].
        + rewrite orb_false_r. destruct (in_last P q s); [|now rewrite andb_false_r]. destruct (stall P B n q s); [now rewrite andb_false_r|].
          destruct (Nat.eqb_spec 0 (p_entry P s)) as [K|_]; [destruct (O1 s); now rewrite K|reflexivity]. }
    repeat split; intros s L.
    - rewrite (St s L), (F1 s L). unfold accepts, input. destruct (Nat.eqb_spec (S s) (p_num P)) as [K|K]; cbn [orb].
      + destruct (ready P q s), (stall P B n q s); cbn [andb negb]; rewrite ?andb_false_r, ?andb_true_r; reflexivity.
      + rewrite (St (S s)) by lia. destruct (ready P q s), (stall P B n q s), (code_full P B n q s), (F (S s)); cbn [andb negb]; rewrite ?andb_false_r, ?andb_true_r; reflexivity.
    - rewrite F2, (St s L). reflexivity.
    - now rewrite F3, (St (S s) L).
  Qed.

  Lemma not_last (q : pst A) s : r_idx q s = 0 -> in_last P q s = false.
  Proof.
    destruct OK as (O1 & O2 & O3). intros E; unfold in_last; rewrite E. destruct (Nat.eqb_spec 0 (p_last P s)) as [K|_]; [destruct (O2 s); now rewrite K|reflexivity].
  Qed.
  Lemma idle_stall n q s : r_idx q s = 0 -> stall P B n q s = false.
  Proof. intros E; unfold stall. now rewrite not_last. Qed.
  Lemma idle_full n q s : r_idx q s = 0 -> code_full P B n q s = r_full q s.
  Proof. intros E; unfold code_full. now rewrite not_last. Qed.
  Lemma idle_idx n q s : r_idx q s = 0 -> code_idx P B n q s = 0.
  Proof. intros E; unfold code_idx. now rewrite E. Qed.
  Lemma idle_ready (q : pst A) s : r_idx q s = 0 -> ready P q s = true.
  Proof. intros E; unfold ready. now rewrite E, Nat.eqb_refl, orb_true_r. Qed.

  Section Run.
    Variable t0 : nat -> A.
    Notation R := (run P fw B t0).
    Lemma run_S n : R (S n) = step P fw B n (R n). Proof. reflexivity. Qed.

    (** Each stage gets to its last state and does not stall for ever. *)
    Definition free (s m : nat) : Prop := r_idx (R m) s = 0 \/ (in_last P (R m) s = true /\ stall P B m (R m) s = false).
    Hypothesis fair : forall s m, exists m', m <= m' /\ free s m'.

    Lemma wait_step n s : S s < p_num P -> waiting (R n) s = true -> started P fw B n (R n) (S s) = false -> waiting (R (S n)) s = true.
    Proof.
      intros L W N. unfold waiting in *. apply andb_true_iff in W as [W1 W2]. apply Nat.eqb_eq in W2.
      destruct (step_started n (R n)) as (S1 & S2 & S3). rewrite run_S, S2, S3 by lia. rewrite N, (idle_full n) by assumption. rewrite W1; cbn [andb negb].
      rewrite (S1 s) by lia. unfold accepts. rewrite N, (idle_full n), W1 by assumption. destruct (Nat.eqb_spec (S s) (p_num P)); [lia|]. cbn [orb andb negb].
      rewrite andb_false_r. cbn [andb]. now rewrite idle_idx.
    Qed.
    (** A waiting item leaves once the next stage accepts. *)
    Lemma wait_leaves s : S s < p_num P -> forall k m, waiting (R m) s = true -> accepts (m + k) (R (m + k)) (S s) = true ->
      exists m', m <= m' /\ waiting (R m') s = true /\ started P fw B m' (R m') (S s) = true.
    Proof.
      intros L; induction k as [|k IH]; intros m W Ac.
      - rewrite Nat.add_0_r in Ac. exists m; split; [lia|]. split; [assumption|]. destruct (step_started m (R m)) as (S1 & _). rewrite S1, Ac by assumption.
        unfold waiting in W; apply andb_true_iff in W as [W1 W2]; apply Nat.eqb_eq in W2.
        unfold input; cbn [Nat.eqb Nat.sub andb]. rewrite Nat.sub_0_r, idle_full, idle_stall by assumption. now rewrite W1.
      - destruct (started P fw B m (R m) (S s)) eqn:E; [exists m; auto|]. destruct (IH (S m)) as (m' & H1 & H2).
        + now apply wait_step.
        + now replace (S m + k) with (m + S k) by lia.
        + exists m'; split; [lia|exact H2].
    Qed.

    Lemma accepts_again : forall d s, s + d = p_num P - 1 -> 0 < p_num P -> forall m, exists m', m <= m' /\ accepts m' (R m') s = true.
    Proof.
      induction d as [|d IH]; intros s E Np m.
      - destruct (fair s m) as (m' & Lm & Fr). exists m'; split; [assumption|]. unfold accepts.
        replace (Nat.eqb (S s) (p_num P)) with true by (symmetry; apply Nat.eqb_eq; lia). cbn [orb]. rewrite andb_true_r.
        destruct Fr as [Z|[La St]]; [now rewrite idle_ready, idle_stall|]. unfold ready. now rewrite La, St.
      - assert (W : forall m, waiting (R m) s = true -> exists m', m <= m' /\ accepts m' (R m') s = true).
        { intros m1 W. destruct (IH (S s) ltac:(lia) Np m1) as (m2 & L2 & Ac). replace m2 with (m1 + (m2 - m1)) in Ac by lia.
          destruct (wait_leaves s ltac:(lia) _ _ W Ac) as (m' & H1 & H2 & H3). exists m'; split; [assumption|]. unfold accepts. rewrite H3; cbn [negb]. rewrite andb_false_r; cbn [negb].
          rewrite orb_true_r. unfold waiting in H2; apply andb_true_iff in H2 as [_ H2]; apply Nat.eqb_eq in H2. now rewrite idle_ready, idle_stall. }
        destruct (fair s m) as (m1 & L1 & Fr).
        destruct (accepts m1 (R m1) s) eqn:Ac; [exists m1; auto|].
        assert (Rd : ready P (R m1) s = true) by (destruct Fr as [Z|[La _]]; [now apply idle_ready|unfold ready; now rewrite La]).
        assert (St : stall P B m1 (R m1) s = false) by (destruct Fr as [Z|[_ St]]; [now apply idle_stall|exact St]).
        unfold accepts in Ac. rewrite Rd, St in Ac. destruct (Nat.eqb_spec (S s) (p_num P)); [lia|]. cbn [orb andb negb] in Ac. rewrite andb_true_r in Ac.
        apply negb_false_iff, andb_true_iff in Ac as [Cf Ns]; apply negb_true_iff in Ns.
        destruct (W (S m1)) as (m' & L' & H'); [|exists m'; split; [lia|exact H']].
        destruct (step_started m1 (R m1)) as (S1 & S2 & S3). unfold waiting; rewrite run_S, S2, S3 by lia. rewrite Cf, Ns; cbn [andb negb].
        rewrite (S1 s) by lia. unfold accepts. rewrite Cf, Ns. destruct (Nat.eqb_spec (S s) (p_num P)); [lia|]. cbn [orb andb negb]. rewrite andb_false_r; cbn [andb].
        apply Nat.eqb_eq. destruct Fr as [Z|[La _]]; [now apply idle_idx|]. unfold code_idx. rewrite La, St. destruct (Nat.eqb (r_idx (R m1) s) 0); reflexivity.
    Qed.

    Definition empty (m s : nat) : Prop := r_idx (R m) s = 0 /\ (S s < p_num P -> r_full (R m) s = false).
    Lemma idle_stays n s : s < p_num P -> input n (R n) s = false -> r_idx (R n) s = 0 -> r_idx (R (S n)) s = 0.
    Proof.
      intros L I Z. destruct (step_started n (R n)) as (S1 & S2 & S3). rewrite run_S, S2, S1 by assumption. rewrite I, andb_false_r. now apply idle_idx.
    Qed.
    Lemma empty_stays n s : s < p_num P -> input n (R n) s = false -> empty n s -> empty (S n) s.
    Proof.
      intros L I [Z Fu]; split; [now apply idle_stays|]. intros Ls. destruct (step_started n (R n)) as (S1 & S2 & S3). rewrite run_S, S3 by assumption.
      rewrite idle_full by assumption. now rewrite Fu.
    Qed.

    (** A stage which is not fed any more is eventually empty. *)
    Lemma empties s m : s < p_num P -> (forall n, m <= n -> input n (R n) s = false) -> exists m', m <= m' /\ forall n, m' <= n -> empty n s.
    Proof.
      intros L I. destruct (fair s m) as (m1 & L1 & Fr).
      assert (Z1 : r_idx (R (S m1)) s = 0).
      { destruct Fr as [Z|[La St]]; [now apply idle_stays; [|apply I|]|]. destruct (step_started m1 (R m1)) as (S1 & S2 & _).
        rewrite run_S, S2, S1 by assumption. rewrite I, andb_false_r by assumption. unfold code_idx. rewrite La, St. destruct (Nat.eqb (r_idx (R m1) s) 0); reflexivity. }
      assert (Em : exists m', S m1 <= m' /\ empty m' s).
      { destruct (Nat.eq_dec (S s) (p_num P)) as [K|K]; [exists (S m1); split; [lia|split; [assumption|lia]]|].
        destruct (r_full (R (S m1)) s) eqn:Fu; [|exists (S m1); split; [lia|split; auto]].
        assert (W : waiting (R (S m1)) s = true) by (unfold waiting; now rewrite Fu, Z1, Nat.eqb_refl).
        destruct (accepts_again (p_num P - 1 - S s) (S s) ltac:(lia) ltac:(lia) (S m1)) as (m2 & L2 & Ac). replace m2 with (S m1 + (m2 - S m1)) in Ac by lia.
        destruct (wait_leaves s ltac:(lia) _ _ W Ac) as (m' & H1 & H2 & H3). exists (S m'); split; [lia|].
        unfold waiting in H2; apply andb_true_iff in H2 as [_ H2]; apply Nat.eqb_eq in H2. split; [apply idle_stays; [assumption|apply I; lia|assumption]|]. intros _.
        destruct (step_started m' (R m')) as (_ & _ & S3). rewrite run_S, S3, H3 by lia. cbn [negb]. now rewrite andb_false_r. }
      destruct Em as (m' & L' & Em). exists m'; split; [lia|]. intros n Ln. induction Ln as [|n Ln IH]; [assumption|]. apply empty_stays; [assumption|apply I; lia|assumption].
    Qed.

    Lemma drains m : (forall n, m <= n -> o_go B n = false) -> forall k, k <= p_num P -> exists m', m <= m' /\ forall n s, m' <= n -> s < k -> empty n s.
    Proof.
      intros G; induction k as [|k IH]; intros L; [exists m; split; [lia|intros; lia]|].
      destruct IH as (m1 & L1 & H1); [lia|]. destruct (empties k m1) as (m2 & L2 & H2); [lia| |].
      - intros n Ln. unfold input. destruct (Nat.eqb_spec k 0) as [->|K]; [apply G; lia|]. destruct (H1 n (k - 1) Ln ltac:(lia)) as [Z Fu]. rewrite idle_full, Fu by (assumption || lia). reflexivity.
      - exists m2; split; [lia|]. intros n s Ln Ls. destruct (Nat.eq_dec s k) as [->|]; [now apply H2|]. apply H1; lia.
    Qed.

    Lemma empty_drained n : (forall s, s < p_num P -> empty n s) -> drained P (R n) = true.
    Proof.
      intros H. unfold drained. apply forallb_forall. intros s Hs. apply in_seq in Hs. destruct (H s ltac:(lia)) as [Z Fu]. rewrite Z, Nat.eqb_refl; cbn [andb].
      destruct (Nat.eqb_spec (S s) (p_num P)); [reflexivity|]. now rewrite Fu by lia.
    Qed.
    Lemma drained_empty n : drained P (R n) = true -> forall s, s < p_num P -> empty n s.
    Proof.
      unfold drained; rewrite forallb_forall; intros H s L. specialize (H s (proj2 (in_seq _ _ _) (conj (Nat.le_0_l _) L))). apply andb_true_iff in H as [H1 H2]. apply Nat.eqb_eq in H1.
      split; [assumption|]. intros Ls. apply orb_true_iff in H2 as [H2|H2]; [apply Nat.eqb_eq in H2; lia|now apply negb_true_iff].
    Qed.
  End Run.

  Lemma drained_step t0 n : drained P (run P fw B t0 n) = true -> o_go B n = false -> drained P (run P fw B t0 (S n)) = true.
  Proof.
    intros D G. apply (empty_drained t0). pose proof (drained_empty t0 n D) as H. intros s L. apply empty_stays; [assumption| |now apply H].
    unfold input. destruct (Nat.eqb_spec s 0); [assumption|]. destruct (H (s - 1) ltac:(lia)) as [Z Fu]. rewrite idle_full, Fu by (assumption || lia). reflexivity.
  Qed.
End Live.
