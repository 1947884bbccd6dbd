(** Pipelines in algorithms: items move from stage to stage, in order. *)
From Coq Require Import List Bool Arith Lia.
Import ListNotations.
From Verif Require Import PfModel.

(** States are numbered from 1, and the code of a stage selects a state of the stage which is not the first one: the first state has no other predecessor
    than the previous stage (startState is created for the stage, 2519-2525); fast forward to termination applies to the root machine only (4494-4504). *)
Definition stages_ok {A : Type} (P : pipeline) (B : beh A) : Prop :=
  (forall s, p_entry P s <> 0) /\ (forall s, p_last P s <> 0) /\ forall s n j, o_next B s n j <> 0 /\ o_next B s n j <> p_entry P s.

Section Items.
  Context {A : Type}.
  Variables (P : pipeline) (fw : nat) (B : beh A).

  (** Which triggers are taken. *)
  Lemma triggers_spec n q : forall k idx full,
    exists F, (forall s, k <= s -> F s = false) /\
      (forall s, s < k -> F s = ready P q s && (if Nat.eqb s 0 then o_go B n else full (s - 1) && negb (stall P B n q (s - 1)))
                                && (Nat.eqb (S s) (p_num P) || negb (full s && negb (F (S s)))) && negb (stall P B n q s)) /\
      (forall s, fst (triggers P B n q k idx full) s = if F s then p_entry P s else idx s) /\
      (forall s, snd (triggers P B n q k idx full) s = full s && negb (F (S s))).
  Proof.
    induction k as [|k IH]; intros idx full.
    - exists (fun _ => false); repeat split; [intros; lia|]. intros s; cbn; now rewrite andb_true_r.
    - cbn [triggers].
      set (full1 := if fires P B n q k full then (if Nat.eqb k 0 then full else set full (k - 1) false) else full).
      set (idx1 := if fires P B n q k full then set idx k (p_entry P k) else idx).
      assert (E : (if fires P B n q k full then triggers P B n q k (set idx k (p_entry P k)) (if Nat.eqb k 0 then full else set full (k - 1) false)
                   else triggers P B n q k idx full) = triggers P B n q k idx1 full1).
      { unfold idx1, full1; destruct (fires P B n q k full); reflexivity. }
      rewrite E; destruct (IH idx1 full1) as (F & F0 & F1 & F2 & F3).
      set (b := fires P B n q k full) in *.
      assert (X : forall s, full1 s = full s && negb (b && Nat.eqb (S s) k)).
      { intros s; unfold full1; destruct b; cbn [andb]; [|now rewrite andb_true_r]. destruct (Nat.eqb_spec k 0) as [->|K]; [cbn; now rewrite andb_true_r|].
        unfold set; destruct (Nat.eqb_spec s (k - 1)) as [->|S1].
        - replace (S (k - 1)) with k by lia; rewrite Nat.eqb_refl; cbn; now rewrite andb_false_r.
        - destruct (Nat.eqb_spec (S s) k); [lia|]. cbn; now rewrite andb_true_r. }
      exists (fun s => if Nat.eqb s k then b else F s); repeat split.
      + intros s L; destruct (Nat.eqb_spec s k); [lia|]. apply F0; lia.
      + intros s L; destruct (Nat.eqb_spec s k) as [->|Ne].
        * destruct (Nat.eqb_spec (S k) k); [lia|]. rewrite (F0 (S k)) by lia. cbn [negb]; rewrite andb_true_r; reflexivity.
        * rewrite F1 by lia. rewrite !X. destruct (Nat.eqb_spec (S (s - 1)) k) as [Q|_].
          { destruct (Nat.eqb_spec s 0) as [->|]; [|lia]. cbn [Nat.eqb]. destruct (Nat.eqb_spec 1 k) as [<-|]; [|lia].
            rewrite (F0 1) by lia. destruct b; cbn; rewrite ?andb_true_r; reflexivity. }
          rewrite andb_false_r; cbn [negb]; rewrite andb_true_r.
          destruct (Nat.eqb_spec (S s) k) as [Q|_].
          { rewrite Q, (F0 k) by lia. cbn [negb]; rewrite !andb_true_r; reflexivity. }
          rewrite andb_false_r; cbn [negb]; rewrite andb_true_r; reflexivity.
      + intros s; rewrite F2; unfold idx1; destruct (Nat.eqb_spec s k) as [->|Ne].
        * rewrite (F0 k) by lia; destruct b; [|reflexivity]. unfold set; now rewrite Nat.eqb_refl.
        * destruct (F s); [reflexivity|]. destruct b; [|reflexivity]. unfold set; destruct (Nat.eqb_spec s k); [lia|reflexivity].
      + intros s; rewrite F3, X; destruct (Nat.eqb_spec (S s) k) as [Q|Ne].
        * rewrite Q, (F0 k) by lia. destruct b; cbn; now rewrite ?andb_true_r.
        * rewrite andb_false_r; cbn; now rewrite andb_true_r.
  Qed.

  (** * Events. *)
  (** Stage [s] completes an item in cycle [n]: last state, not stalled, and the item is handed to the next stage. *)
  Definition completes (n : nat) (q : pst A) (s : nat) : bool := in_last P q s && negb (stall P B n q s) && code_full P B n q s.
  (** Stage [s] is started at the end of cycle [n]. *)
  Definition started (n : nat) (q : pst A) (s : nat) : bool :=
    Nat.eqb (r_idx (step P fw B n q) s) (p_entry P s) && negb (stall P B n q s) && ready P q s.

  (** Values of the variable, for the items completed by stage [s], and for the items entering stage [s]. *)
  Fixpoint left (t0 : nat -> A) (s n : nat) : list A :=
    match n with
    | O => []
    | S m => let q := run P fw B t0 m in left t0 s m ++ (if completes m q s then [code_t P fw B m q s] else [])
    end.
  Fixpoint entered (t0 : nat -> A) (s n : nat) : list A :=
    match n with
    | O => []
    | S m => let q := run P fw B t0 m in entered t0 s m ++ (if started m q s then [r_t (step P fw B m q) s] else [])
    end.

  Definition waiting (q : pst A) (s : nat) : bool := r_full q s && Nat.eqb (r_idx q s) 0.
  Definition busy (q : pst A) (s : nat) : bool := negb (Nat.eqb (r_idx q s) 0).
  Definition sound (q : pst A) : Prop := forall s, S s < p_num P -> r_full q s = true -> r_idx q s = 0 \/ r_idx q s = p_last P s.

  Hypothesis OK : stages_ok P B.

  Lemma step_eq n q : exists F,
      (forall s, p_num P <= s -> F s = false) /\
      (forall s, s < p_num P -> F s = ready P q s && (if Nat.eqb s 0 then o_go B n else code_full P B n q (s - 1) && negb (stall P B n q (s - 1)))
                                && (Nat.eqb (S s) (p_num P) || negb (code_full P B n q s && negb (F (S s)))) && negb (stall P B n q s)) /\
      (forall s, r_idx (step P fw B n q) s = if F s then p_entry P s else code_idx P B n q s) /\
      (forall s, r_full (step P fw B n q) s = code_full P B n q s && negb (F (S s))) /\
      (forall s, r_t (step P fw B n q) s =
                 if (fw <? s) && Nat.eqb (if F s then p_entry P s else code_idx P B n q s) (p_entry P s) && negb (stall P B n q s) then code_t P fw B n q (s - 1) else code_t P fw B n q s).
  Proof.
    destruct (triggers_spec n q (p_num P) (code_idx P B n q) (code_full P B n q)) as (F & F0 & F1 & F2 & F3).
    exists F; split; [assumption|]. split; [assumption|]. unfold step.
    destruct (triggers P B n q (p_num P) (code_idx P B n q) (code_full P B n q)) as [i f] eqn:E; cbn in *.
    repeat split; intros s; [apply F2|apply F3|]. now rewrite F2.
  Qed.

  (** The first state is selected by the trigger only. *)
  Lemma code_idx_entry n q s : disabled B n s = false -> stall P B n q s = false -> code_idx P B n q s <> p_entry P s.
  Proof.
    destruct OK as (O1 & O2 & O3); unfold code_idx; intros -> ->. destruct (Nat.eqb_spec (r_idx q s) 0); [apply not_eq_sym, O1|].
    destruct (in_last P q s); [apply not_eq_sym, O1|]. apply O3.
  Qed.

  Lemma fired_entry n q F s :
    (s < p_num P -> F s = true -> stall P B n q s = false) -> (forall s, p_num P <= s -> F s = false) -> disabled B n s = false ->
    Nat.eqb (if F s then p_entry P s else code_idx P B n q s) (p_entry P s) && negb (stall P B n q s) = F s.
  Proof.
    intros H F0 D; destruct (F s) eqn:E.
    - rewrite Nat.eqb_refl, H; [reflexivity| |reflexivity]. destruct (le_lt_dec (p_num P) s); [|assumption]. rewrite (F0 s) in E by assumption; discriminate.
    - destruct (stall P B n q s) eqn:St; [now rewrite andb_false_r|]. pose proof (code_idx_entry n q s D St) as N.
      destruct (Nat.eqb_spec (code_idx P B n q s) (p_entry P s)); [contradiction|reflexivity].
  Qed.

  Lemma sound_step n q : sound q -> sound (step P fw B n q).
  Proof.
    intros I s L. destruct (step_eq n q) as (F & F0 & F1 & F2 & F3 & _). rewrite F2, F3. intros H; apply andb_true_iff in H as [H1 H2].
    assert (Fs : F s = false).
    { rewrite F1 by lia. rewrite H1, H2. cbn [andb negb]. destruct (Nat.eqb_spec (S s) (p_num P)); [lia|]. cbn [orb]. now rewrite andb_false_r. }
    rewrite Fs. unfold code_idx. destruct (Nat.eqb_spec (r_idx q s) 0) as [Z|Z]; [now left|].
    destruct (in_last P q s) eqn:La.
    - destruct (stall P B n q s); [now right|now left].
    - exfalso. unfold code_full in H1; rewrite La in H1; cbn in H1. destruct (I s L H1) as [K|K]; [contradiction|]. unfold in_last in La; rewrite K, Nat.eqb_refl in La; discriminate.
  Qed.
  Lemma sound_run t0 n : sound (run P fw B t0 n).
  Proof. induction n as [|n IH]; [intros s _ H; discriminate|]. cbn [run]. now apply sound_step. Qed.

  (** ** From a stage to the next one. *)
  Lemma handover_step n q s : sound q -> fw <= s -> S s < p_num P ->
    (if waiting q s then [r_t q s] else []) ++ (if completes n q s then [code_t P fw B n q s] else []) =
    (if started n q (S s) then [r_t (step P fw B n q) (S s)] else []) ++ (if waiting (step P fw B n q) s then [r_t (step P fw B n q) s] else []).
  Proof.
    intros I Lf L. destruct (step_eq n q) as (F & F0 & F1 & F2 & F3 & F4). destruct OK as (O1 & O2 & O3).
    assert (FS : F (S s) = ready P q (S s) && (code_full P B n q s && negb (stall P B n q s)) && (Nat.eqb (S (S s)) (p_num P) || negb (code_full P B n q (S s) && negb (F (S (S s))))) && negb (stall P B n q (S s))).
    { rewrite (F1 (S s)) by assumption. cbn [Nat.eqb Nat.sub]. rewrite Nat.sub_0_r. reflexivity. }
    assert (St : started n q (S s) = F (S s)).
    { unfold started. rewrite F2, fired_entry; [|intros _ E; rewrite FS in E; repeat (apply andb_true_iff in E as [E ?]); now apply negb_true_iff|assumption|reflexivity].
      destruct (F (S s)) eqn:E; [|reflexivity]. symmetry in FS; repeat (apply andb_true_iff in FS as [FS ?]). now rewrite FS. }
    rewrite St. rewrite !F4.
    assert (T1 : (fw <? S s) = true) by (apply Nat.ltb_lt; lia). rewrite T1; cbn [andb].
    rewrite (fired_entry n q F (S s)); [|intros _ E; rewrite FS in E; repeat (apply andb_true_iff in E as [E ?]); now apply negb_true_iff|assumption|reflexivity].
    cbn [Nat.sub]; rewrite Nat.sub_0_r.
    unfold waiting; rewrite F2, F3.
    (* the stage itself is not started while it holds an item *)
    assert (Self : code_full P B n q s && negb (F (S s)) = true -> F s = false).
    { intros H. rewrite (F1 s) by lia. rewrite H. cbn [negb]. destruct (Nat.eqb_spec (S s) (p_num P)); [lia|]. cbn [orb]. now rewrite andb_false_r. }
    unfold completes. destruct (in_last P q s) eqn:La; cbn [andb].
    - (* last state *)
      pose proof La as La'; unfold in_last in La'; apply Nat.eqb_eq in La'. assert (Nz : Nat.eqb (r_idx q s) 0 = false) by (apply Nat.eqb_neq; rewrite La'; apply O2).
      rewrite Nz, andb_false_r. cbn [app].
      destruct (stall P B n q s) eqn:Ss; cbn [negb andb].
      + assert (F (S s) = false) as E by (rewrite FS; cbn; now rewrite !andb_false_r). rewrite E; cbn [app].
        destruct (F s) eqn:Fs; [assert (K := F1 s ltac:(lia)); rewrite Fs, Ss, andb_false_r in K; discriminate|].
        unfold code_idx; rewrite Nz, La, Ss. destruct (Nat.eqb_spec (p_last P s) 0) as [K|_]; [destruct (O2 _ K)|]. now rewrite andb_false_r.
      + destruct (code_full P B n q s) eqn:Cf; cbn [andb].
        * destruct (F (S s)) eqn:E; cbn [negb andb app]; [reflexivity|]. rewrite (Self eq_refl). unfold code_idx; rewrite Nz, La, Ss.
          destruct (Nat.eqb_spec 0 (p_entry P s)) as [K|_]; [destruct (O1 s); now rewrite K|]. cbn [Nat.eqb]; now rewrite andb_false_r.
        * assert (F (S s) = false) as E by (rewrite FS; cbn [andb]; now rewrite ?andb_false_r, ?andb_false_l). rewrite E; reflexivity.
    - (* other states *)
      rewrite app_nil_r. destruct (r_full q s) eqn:Rf; cbn [andb].
      + destruct (I s L Rf) as [Z|Z]; [|unfold in_last in La; rewrite Z, Nat.eqb_refl in La; discriminate]. rewrite Z; cbn [Nat.eqb].
        assert (Cf : code_full P B n q s = true) by (unfold code_full; rewrite La; exact Rf).
        assert (Ct : code_t P fw B n q s = r_t q s) by (unfold code_t; rewrite La, Z; destruct (Nat.eqb s fw); reflexivity).
        rewrite Cf, Ct. cbn [andb]. destruct (F (S s)) eqn:E; cbn [negb app]; [reflexivity|]. rewrite Self by (rewrite Cf; reflexivity).
        assert (Ci : code_idx P B n q s = 0) by (unfold code_idx; now rewrite Z). rewrite Ci. destruct (Nat.eqb_spec 0 (p_entry P s)) as [K|_]; [destruct (O1 s); now rewrite K|]. cbn [Nat.eqb]; now rewrite andb_false_r.
      + assert (Cf : code_full P B n q s = false) by (unfold code_full; rewrite La; exact Rf).
        assert (F (S s) = false) as E by (rewrite FS, Cf; cbn [andb]; now rewrite ?andb_false_r, ?andb_false_l). rewrite E, Cf; reflexivity.
  Qed.

  Lemma handover t0 s n : fw <= s -> S s < p_num P ->
    left t0 s n = entered t0 (S s) n ++ (if waiting (run P fw B t0 n) s then [r_t (run P fw B t0 n) s] else []).
  Proof.
    intros Lf L; induction n as [|n IH]; [reflexivity|]. cbn [left entered run]. rewrite IH, <- !app_assoc. f_equal.
    apply handover_step; [apply sound_run|assumption|assumption].
  Qed.

  (** ** Inside of a stage. *)
  Lemma inside_step {T : Type} (tag : A -> T) n q s : (forall s n j a, tag (o_proc B s n j a) = tag a) -> fw < s -> s < p_num P ->
    map tag ((if busy q s then [r_t q s] else []) ++ (if started n q s then [r_t (step P fw B n q) s] else [])) =
    map tag ((if completes n q s then [code_t P fw B n q s] else []) ++ (if busy (step P fw B n q) s then [r_t (step P fw B n q) s] else [])).
  Proof.
    intros Tg Lf L. destruct (step_eq n q) as (F & F0 & F1 & F2 & F3 & F4). destruct OK as (O1 & O2 & O3).
    assert (D : disabled B n s = false) by (unfold disabled; destruct (Nat.eqb_spec s 0); [lia|reflexivity]).
    assert (Hs : s < p_num P -> F s = true -> stall P B n q s = false).
    { intros _ E; rewrite (F1 s) in E by assumption. repeat (apply andb_true_iff in E as [E ?]); now apply negb_true_iff. }
    assert (St : started n q s = F s).
    { unfold started. rewrite F2, fired_entry by assumption.
      destruct (F s) eqn:E; [|reflexivity]. rewrite (F1 s) in E by assumption; repeat (apply andb_true_iff in E as [E ?]). now rewrite E. }
    rewrite St, F4. rewrite (proj2 (Nat.ltb_lt _ _) Lf); cbn [andb]. rewrite fired_entry by assumption.
    assert (Ct : tag (code_t P fw B n q s) = tag (r_t q s)).
    { unfold code_t; destruct (Nat.eqb_spec s fw); [lia|]. destruct (Nat.eqb (r_idx q s) 0); [reflexivity|apply Tg]. }
    unfold busy; rewrite F2. unfold completes.
    destruct (in_last P q s) eqn:La; cbn [andb].
    - pose proof La as La'; unfold in_last in La'; apply Nat.eqb_eq in La'. assert (Nz : Nat.eqb (r_idx q s) 0 = false) by (apply Nat.eqb_neq; rewrite La'; apply O2).
      rewrite Nz; cbn [negb]. destruct (stall P B n q s) eqn:Ss; cbn [negb andb].
      + destruct (F s) eqn:E; [discriminate (Hs L eq_refl)|]. unfold code_idx; rewrite Nz, La, Ss.
        destruct (Nat.eqb_spec (p_last P s) 0) as [K|_]; [destruct (O2 _ K)|]. cbn; now rewrite Ct.
      + assert (Cf : code_full P B n q s = true) by (unfold code_full; now rewrite La, D). rewrite Cf.
        destruct (F s) eqn:E.
        * destruct (Nat.eqb_spec (p_entry P s) 0) as [K|_]; [destruct (O1 _ K)|]. cbn; now rewrite Ct.
        * unfold code_idx; rewrite Nz, La, Ss. cbn; now rewrite Ct.
    - destruct (Nat.eqb_spec (r_idx q s) 0) as [Z|Z]; cbn [negb app].
      + destruct (F s) eqn:E.
        * destruct (Nat.eqb_spec (p_entry P s) 0) as [K|_]; [destruct (O1 _ K)|]. reflexivity.
        * unfold code_idx; rewrite Z; reflexivity.
      + assert (E : F s = false).
        { rewrite (F1 s) by assumption. unfold ready; rewrite La. destruct (Nat.eqb_spec (r_idx q s) 0); [contradiction|reflexivity]. }
        rewrite E; unfold code_idx. rewrite D, La. destruct (Nat.eqb_spec (r_idx q s) 0); [contradiction|].
        destruct (Nat.eqb_spec (o_next B s n (r_idx q s)) 0) as [K|_]; [destruct (O3 s n (r_idx q s)) as [K' _]; contradiction|]. cbn; now rewrite Ct.
  Qed.

  Lemma inside {T : Type} (tag : A -> T) t0 s n : (forall s n j a, tag (o_proc B s n j a) = tag a) -> fw < s -> s < p_num P ->
    map tag (entered t0 s n) = map tag (left t0 s n ++ if busy (run P fw B t0 n) s then [r_t (run P fw B t0 n) s] else []).
  Proof.
    intros Tg Lf L; induction n as [|n IH]; [reflexivity|]. cbn [left entered run].
    rewrite map_app, IH, map_app, <- app_assoc, <- map_app, inside_step by assumption. now rewrite <- app_assoc, map_app, !map_app.
  Qed.

  (** ** Across the pipeline: the items after stage [s], in order, from the d-th next stage to [s]. *)
  Fixpoint between (q : pst A) (s d : nat) : list A :=
    match d with
    | O => []
    | S d' => between q (S s) d' ++ (if busy q (S s) then [r_t q (S s)] else []) ++ (if waiting q s then [r_t q s] else [])
    end.
  Lemma across {T : Type} (tag : A -> T) t0 n : (forall s n j a, tag (o_proc B s n j a) = tag a) -> forall d s, fw <= s -> s + d < p_num P ->
    map tag (left t0 s n) = map tag (left t0 (s + d) n ++ between (run P fw B t0 n) s d).
  Proof.
    intros Tg; induction d as [|d IH]; intros s Lf L; [now rewrite Nat.add_0_r, app_nil_r|].
    rewrite (handover t0 s n) by lia. rewrite map_app, (inside tag) by (auto; lia). rewrite map_app, IH by lia.
    cbn [between]. replace (S s + d) with (s + S d) by lia. now rewrite !map_app, <- !app_assoc.
  Qed.

  Lemma drained_between q : drained P q = true -> forall d s, s + d < p_num P -> between q s d = [].
  Proof.
    unfold drained; rewrite forallb_forall; intros H.
    assert (Z : forall s, s < p_num P -> r_idx q s = 0 /\ (S s = p_num P \/ r_full q s = false)).
    { intros s L. specialize (H s (proj2 (in_seq _ _ _) (conj (Nat.le_0_l _) L))). apply andb_true_iff in H as [H1 H2]. apply Nat.eqb_eq in H1. split; [assumption|].
      apply orb_true_iff in H2 as [H2|H2]; [left; now apply Nat.eqb_eq|right; now apply negb_true_iff]. }
    induction d as [|d IH]; intros s L; [reflexivity|]. cbn [between]. rewrite IH by lia.
    destruct (Z (S s) ltac:(lia)) as [Z1 _]. destruct (Z s ltac:(lia)) as [_ [Z2|Z2]]; [lia|]. unfold busy, waiting. now rewrite Z1, Z2.
  Qed.
End Items.
