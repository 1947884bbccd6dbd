(** C44: what the formal verification tools check is what the program says. *)
From Coq Require Import List Bool Arith ZArith Lia.
Import ListNotations.
From Verif Require Import FsmModel FsmEmit FsmLayout FsmRegion FsmStates FsmArms FsmSource FsmRun FsmBig FsmStep FsmProps WidthModel RegModel RegProps FormalModel FormalProofs.

(** A called algorithm: an assertion reported in cycle [n] of an execution considered by the tools is false in the source, in an execution of the program
    called by a cycle where run is low, from the initial values, in which no assumption of the program was false. *)
Theorem C44_sound_partial : forall a fuel unit deps0 p m vr pre ga gm, a_auto a = false -> a_fsm a = true -> Checked fuel unit deps0 p m pre ga gm ->
  forall t n, considered a m vr pre ga gm t n -> fails a m vr pre ga gm t n = true ->
  exists k s0 c s l, 1 <= k <= n /\ t_run t (k - 1) = false /\ at_cycle a m vr pre ga gm t k = Some s0 /\
    (forall x i, vr x = Some (Mux OnResetOrNotRun i) -> m_q s0 x = i) /\
    exe (body unit p) (senv pre ga gm t k) ga gm (Run (SStep :: body unit p) KStop, m_q s0) (c, s) (l ++ [(true, false)]) /\
    length l = n - k /\ (forall f, In f l -> snd f = false).
Proof.
  intros a fuel unit deps0 p m vr pre ga gm CA FS K t n C Fl.
  unfold fails in Fl. apply andb_true_iff in Fl as [Qn Fl]. apply negb_true_iff in Qn. pose proof Qn as Qn'. unfold quiet in Qn'. apply orb_false_iff in Qn' as [N0 Rn]. apply Nat.eqb_neq in N0.
  destruct (assumed_at _ _ _ _ _ _ _ _ (C n (le_n n))) as [s [D [i [A [I [_ [G M]]]]]]]. specialize (G N0). specialize (M Qn). rewrite I in Fl. rewrite (callable_true a CA FS) in G.
  destruct (assumed_at _ _ _ _ _ _ _ _ (C 0 ltac:(lia))) as [_ [_ [_ [_ [_ [R0 _]]]]]]. specialize (R0 eq_refl).
  assert (NZ : m_idx s <> 0).
  { intros Z. rewrite (in_idle _ _ _ _ _ _ _ _ _ A Z) in I. injection I as <- <-. destruct (pre_0 _ _ _ _ _ _ _ _ K n (t_inp t) (m_q s)) as [E _]. now rewrite E in Fl. }
  assert (Un : t_run t n = true). { apply orb_true_iff in G. destruct G as [G|G]; [exact G|]. unfold done in G. apply andb_true_iff in G as [G _]. apply Nat.eqb_eq in G. contradiction. }
  destruct (last_start a m vr pre ga gm CA t R0 n s A ltac:(lia) NZ) as [k [s0 [L [Rk [Uk [Ak [Ek [Ik H]]]]]]]].
  destruct (link a fuel unit deps0 p m vr pre ga gm CA K t k s0 Ak Ek (S (n - k))) as [J [c [l [s1 [_ [X [Ln [_ [_ N]]]]]]]]].
  { intros j Hj. destruct (Nat.eq_dec j n) as [ ->|]; [auto|]. apply H. lia. }
  destruct (exists_last (l := l)) as [l' [f E]]; [intros ->; discriminate|]. subst l. rewrite app_length in Ln. cbn in Ln.
  exists k, s0, c, (m_q s1), l'. split; [exact L|]. split; [exact Uk|]. split; [exact Ak|]. split; [exact Ik|].
  assert (f = (true, false)).
  { destruct (N (n - k)) as [D' [i' [N1 N2]]]; [lia|]. replace (k + (n - k)) with n in N1 by lia. rewrite I in N1. injection N1 as <- <-.
    rewrite nth_error_app2 in N2 by lia. replace (n - k - length l') with 0 in N2 by lia. injection N2 as ->. unfold flags. rewrite Fl, M. reflexivity. }
  subst f. split; [exact X|]. split; [lia|]. intros f Hf. apply In_nth_error in Hf. destruct Hf as [u Hu].
  assert (Lu : u < length l') by (apply nth_error_Some; congruence). destruct (N u) as [D' [i' [N1 N2]]]; [lia|].
  rewrite nth_error_app1, Hu in N2 by lia. injection N2 as ->. cbn. apply negb_false_iff, Z.eqb_eq.
  destruct (assumed_at _ _ _ _ _ _ _ _ (C (k + u) ltac:(lia))) as [s2 [D2 [i2 [_ [I2 [_ [_ M2]]]]]]]. rewrite N1 in I2. injection I2 as <- <-. apply M2.
  unfold quiet. apply orb_false_iff. split; [apply Nat.eqb_neq; lia|]. apply H. lia.
Qed.
Print Assumptions C44_sound_partial.

(** A called algorithm: for all inputs and all contents of the registers without initial value, the tools consider the execution of the program from the
    initial values, as long as no assumption of the program is false, and report it in the cycle where an assertion is false. *)
Theorem C44_complete_partial : forall a fuel unit deps0 p m vr pre ga gm, a_auto a = false -> a_fsm a = true -> Checked fuel unit deps0 p m pre ga gm ->
  (forall x, vr x = Some Keep -> x <> ga /\ x <> gm /\ forall n s, pre n s x = s x) ->
  forall (inp : nat -> store -> store) (s : store),
  exists t s0, (forall u, t_inp t (2 + u) = inp u) /\ at_cycle a m vr pre ga gm t 2 = Some s0 /\
    (forall x i, vr x = Some (Mux OnResetOrNotRun i) -> m_q s0 x = i) /\ (forall x, vr x = Some Keep -> m_q s0 x = s x) /\
    forall n, exists c s1 l f, exe (body unit p) (senv pre ga gm t 2) ga gm (Run (SStep :: body unit p) KStop, m_q s0) (c, s1) (l ++ [f]) /\ length l = n /\
      (considered a m vr pre ga gm t (2 + n) <-> forall h, In h (l ++ [f]) -> snd h = false) /\
      fails a m vr pre ga gm t (2 + n) = fst f.
Proof.
  intros a fuel unit deps0 p m vr pre ga gm CA FS K KP inp s.
  set (t := {| t_inp := fun n => match n with S (S u) => inp u | _ => fun q => q end; t_reset := fun n => Nat.eqb n 0; t_run := fun n => negb (Nat.eqb n 1);
               t_0 := {| m_q := s; m_idx := 0; m_auto := false |} |}).
  assert (A0 : at_cycle a m vr pre ga gm t 0 = Some (t_0 t)) by reflexivity.
  pose proof (in_idle a m vr pre ga gm t 0 _ A0 eq_refl) as I0. pose proof (at_S _ _ _ _ _ _ _ _ _ _ _ A0 I0) as A1.
  match type of A1 with _ = Some ?q => set (s1 := q) in A1 end.
  assert (Z1 : m_idx s1 = 0) by reflexivity.
  pose proof (in_idle a m vr pre ga gm t 1 _ A1 Z1) as I1. pose proof (at_S _ _ _ _ _ _ _ _ _ _ _ A1 I1) as A2.
  match type of A2 with _ = Some ?q => set (s2 := q) in A2 end.
  assert (E2 : m_idx s2 = f_entry m) by (cbn; unfold idx_edge, next_state; now rewrite CA).
  exists t, s2. split; [reflexivity|]. split; [exact A2|]. split; [|split].
  - intros x i E. subst s2. cbn [m_q]. rewrite mod_edge_at, E. reflexivity.
  - intros x E. destruct (KP x E) as [Na [Nm P]]. subst s2. cbn [m_q]. rewrite mod_edge_at, E. cbn [reg_edge]. rewrite P. unfold ginp. rewrite !upd_ne by assumption.
    subst s1. cbn [t_inp t m_q]. rewrite mod_edge_at, E. cbn [reg_edge]. rewrite P. unfold ginp. rewrite !upd_ne by assumption. reflexivity.
  - intros n. destruct (link a fuel unit deps0 p m vr pre ga gm CA K t 2 s2 A2 E2 (S n)) as [J [c [l [s3 [_ [X [Ln [_ [_ N]]]]]]]]].
    { intros j Hj. cbn. destruct j as [|[|j]]; try lia. auto. }
    destruct (exists_last (l := l)) as [l' [f E]]; [intros ->; discriminate|]. subst l. rewrite app_length in Ln. cbn in Ln.
    exists c, (m_q s3), l', f. split; [exact X|]. split; [lia|]. split; [split|].
    + intros C h Hh. apply In_nth_error in Hh. destruct Hh as [u Hu]. assert (Lu : u < length (l' ++ [f])) by (apply nth_error_Some; congruence). rewrite app_length in Lu. cbn in Lu.
      destruct (N u) as [D [i [N1 N2]]]; [lia|]. rewrite Hu in N2. injection N2 as ->. cbn. apply negb_false_iff, Z.eqb_eq.
      destruct (assumed_at _ _ _ _ _ _ _ _ (C (2 + u) ltac:(lia))) as [s4 [D2 [i2 [_ [I4 [_ [_ M]]]]]]]. rewrite N1 in I4. injection I4 as <- <-. apply M. reflexivity.
    + intros H k Lk. unfold assumed. destruct k as [|[|u]].
      * rewrite A0, I0. reflexivity.
      * rewrite A1, I1. rewrite (callable_true a CA FS). destruct (pre_0 _ _ _ _ _ _ _ _ K 1 (t_inp t) (m_q s1)) as [_ G]. rewrite G. unfold done. rewrite CA. reflexivity.
      * destruct (N u) as [D [i [N1 N2]]]; [lia|]. change (2 + u) with (S (S u)) in N1. pose proof N1 as N1'. unfold in_cycle in N1'. destruct (at_cycle a m vr pre ga gm t (S (S u))) as [s4|]; [|discriminate].
        rewrite N1. rewrite (callable_true a CA FS). cbn [Nat.eqb negb orb andb t_run t quiet t_reset].
        apply nth_error_In in N2. apply H in N2. cbn in N2. apply negb_false_iff in N2. rewrite N2. reflexivity.
    + destruct (N n) as [D [i [N1 N2]]]; [lia|]. rewrite nth_error_app2 in N2 by lia. replace (n - length l') with 0 in N2 by lia. injection N2 as ->.
      unfold fails. rewrite N1. reflexivity.
Qed.
Print Assumptions C44_complete_partial.

(** After the first cycle the default case of the states, which the tools assume is never selected, is never selected: no execution is lost. *)
Theorem C44_default_partial : forall a fuel unit deps0 p m vr pre ga gm, Checked fuel unit deps0 p m pre ga gm ->
  forall t, t_reset t 0 = true -> in_cycle a m vr pre ga gm t 0 <> None -> forall n, exists s D i, at_cycle a m vr pre ga gm t n = Some s /\ in_cycle a m vr pre ga gm t n = Some (D, i).
Proof. intros. eapply never_default; eassumption. Qed.
Print Assumptions C44_default_partial.

(** a, initialized to 0, is incremented at each call of the loop until it equals the input 1; variables 8 and 9 stand for the checks. *)
Definition eq2 : Z -> Z -> Z := fun x y => if Z.eqb x y then 1%Z else 0%Z.
Definition ltz : Z -> Z -> Z := fun x y => if Z.ltb x y then 1%Z else 0%Z.
Definition p44 : list stmt :=
  [ SWhile (EB ltz (EV 0) (EV 1)) [ chk 9 (EB ltz (EV 1) (EC 5)); inc 0; chk 8 (EB ltz (EV 0) (EC 3)); SStep ]; chk 8 (EB eq2 (EV 0) (EV 1)) ].
Definition vr44 (x : var) : option upd_rhs := if Nat.eqb x 0 then Some (Mux OnResetOrNotRun 0%Z) else None.
Definition same44 : nat -> store -> store := fun _ s => s.
Lemma checked44 : exists m, Checked 100 true [] p44 m same44 8 9.
Proof.
  eexists. constructor; [vm_compute; reflexivity| | | |].
  - constructor; try reflexivity. intros d x [].
  - intros e H. cbn in H. repeat destruct H as [H|H]; inversion H; subst; eauto.
  - intros e H. cbn in H. repeat destruct H as [H|H]; inversion H; subst; eauto.
  - intros t s. split; reflexivity.
Qed.
Definition call44 (inp : Z) : trace := {| t_inp := fun _ q => upd q 1 inp; t_reset := fun n => Nat.eqb n 0; t_run := fun n => negb (Nat.eqb n 1);
  t_0 := {| m_q := fun _ => 77%Z; m_idx := 2; m_auto := false |} |}.
Definition alg44 (auto : bool) : alg := {| a_fsm := true; a_auto := auto |}.
Example C44_sound_ex : exists m, compile 100 true [] p44 = Some m /\
  (* input 2: passes; input 4: the first assertion fails in the third iteration; input 6: excluded by the assumption *)
  map (fun n => (assumed (alg44 false) m vr44 same44 8 9 (call44 2) n, fails (alg44 false) m vr44 same44 8 9 (call44 2) n)) (seq 0 10) = repeat (true, false) 10 /\
  map (fun n => (assumed (alg44 false) m vr44 same44 8 9 (call44 4) n, fails (alg44 false) m vr44 same44 8 9 (call44 4) n)) (seq 0 10) =
    repeat (true, false) 7 ++ [(true, true)] ++ [(true, false); (true, true)] /\
  map (assumed (alg44 false) m vr44 same44 8 9 (call44 6)) (seq 0 5) = [true; true; true; false; true].
Proof. eexists. split; [vm_compute; reflexivity|]. vm_compute. auto. Qed.

(** An algorithm that starts by itself: the tools consider no execution of more than one cycle (done is assumed, and low after reset), and nothing is ever
    reported, while the same program is reported when it is called. *)
Theorem C44_autorun_refuted :
  (forall a m vr pre ga gm t n, a_auto a = true -> considered a m vr pre ga gm t n -> n = 0) /\
  (forall a m vr pre ga gm, a_auto a = true -> ~ reported a m vr pre ga gm) /\
  exists p m, Checked 100 true [] p m same44 8 9 /\ reported (alg44 false) m vr44 same44 8 9 /\ ~ reported (alg44 true) m vr44 same44 8 9.
Proof.
  assert (N : forall a m vr pre ga gm, a_auto a = true -> ~ reported a m vr pre ga gm).
  { intros a m vr pre ga gm A [t [n [C Fl]]]. rewrite (auto_vacuous a m vr pre ga gm t n A C) in Fl. discriminate. }
  split; [intros; eapply auto_vacuous; eassumption|]. split; [exact N|].
  exists [ chk 8 (EC 0) ]. eexists. split; [|split; [|now apply N]].
  - constructor; [vm_compute; reflexivity| | | |].
    + constructor; try reflexivity. intros d x [].
    + intros e H. cbn in H. repeat destruct H as [H|H]; inversion H; subst; eauto.
    + intros e H. cbn in H. repeat destruct H as [H|H]; inversion H; subst; eauto.
    + intros t s. split; reflexivity.
  - exists {| t_inp := fun _ q => q; t_reset := fun n => Nat.eqb n 0; t_run := fun n => negb (Nat.eqb n 1); t_0 := {| m_q := fun _ => 0%Z; m_idx := 0; m_auto := false |} |}, 2.
    split; [|vm_compute; reflexivity]. intros k L. destruct k as [|[|[|k]]]; [vm_compute; reflexivity..|lia].
Qed.
Print Assumptions C44_autorun_refuted.

(** #cover is not guarded by reset: it is reached in the first cycle, whose registers are arbitrary, when no execution of the program reaches it. *)
Definition pcov : list stmt := [ set 0 1; SStep; cov 8 (EB eq2 (EV 0) (EC 5)) ].
Theorem C44_cover_refuted : exists m, Checked 100 true [] pcov m same44 8 9 /\
  (exists t, (forall n q, t_inp t n q 0 = q 0) /\ considered (alg44 false) m vr44 same44 8 9 t 0 /\ covers (alg44 false) m vr44 same44 8 9 t 0 = true) /\
  forall t n, (forall n q, t_inp t n q 0 = q 0) -> considered (alg44 false) m vr44 same44 8 9 t n -> 1 <= n -> covers (alg44 false) m vr44 same44 8 9 t n = false.
Proof.
  eexists. split; [|split].
  - constructor; [vm_compute; reflexivity| | | |].
    + constructor; try reflexivity. intros d x [].
    + intros e H. cbn in H. repeat destruct H as [H|H]; inversion H; subst; eauto.
    + intros e H. cbn in H. repeat destruct H as [H|H]; inversion H; subst; eauto.
    + intros t s. split; reflexivity.
  - exists {| t_inp := fun _ q => q; t_reset := fun n => Nat.eqb n 0; t_run := fun _ => true; t_0 := {| m_q := fun _ => 5%Z; m_idx := 2; m_auto := false |} |}.
    split; [reflexivity|]. split; [|vm_compute; reflexivity]. intros k L. destruct k; [vm_compute; reflexivity|lia].
  - intros t n HI C L.
    match goal with |- covers ?a ?m ?vr ?pre ?ga ?gm t n = false => assert (INV : forall k, k <= n -> exists s, at_cycle a m vr pre ga gm t k = Some s /\ (1 <= k -> m_idx s = 0 \/ m_idx s = 1 \/ (m_idx s = 2 /\ m_q s 0 = 1%Z))) end.
    { induction k as [|k IH]; intros Lk; [eexists; split; [reflexivity|lia]|].
      destruct (assumed_at _ _ _ _ _ _ _ _ (C k ltac:(lia))) as [s [D [i [A [I [R0 _]]]]]]. eexists. split; [eapply at_S; [exact A|exact I]|]. intros _. cbn [m_idx m_q].
      unfold idx_edge, next_state. cbn [a_auto alg44 f_entry]. destruct (t_reset t k) eqn:R; [now left|]. destruct (t_run t k) eqn:U; cbn [negb]; [|right; left; reflexivity].
      destruct k as [|k]; [specialize (R0 eq_refl); congruence|]. destruct (IH ltac:(lia)) as [s' [A' V]]. rewrite A in A'. injection A' as <-. specialize (V ltac:(lia)).
      unfold in_cycle in I. rewrite A in I. cbn [obind] in I. unfold mod_edge. cbn [orb negb].
      destruct V as [V|[V|[V Q]]]; rewrite V in I; cbn in I; injection I as <- <-; auto. }
    destruct (INV n (le_n n)) as [s [A V]]. specialize (V L). unfold covers, in_cycle. rewrite A. cbn [obind].
    destruct V as [V|[V|[V Q]]]; rewrite V; cbn; rewrite ?HI, ?Q; reflexivity.
Qed.
Print Assumptions C44_cover_refuted.

(** * Checks on stable expressions and past states *)
(** With a binary index the check is made when the state it is recorded for is active. One-hot: never in that state, sometimes in another one. *)
Theorem C44_onehot_refuted :
  (forall idx i, selected false idx (Some i) = true <-> idx = i) /\
  (forall idx i, selected true idx (Some i) = true -> idx <> i) /\ selected true 1 (Some 2) = true /\ selected true 0 (Some 1) = true.
Proof.
  split; [|split; [|split; reflexivity]]; unfold selected, toFSMState; intros idx i.
  - rewrite Z.eqb_eq. lia.
  - intros H E. subst i. destruct ((0 <=? Z.of_nat idx) && (Z.of_nat idx <? 31))%Z; [|discriminate]. apply Z.eqb_eq in H.
    assert (Z.of_nat idx < 2 ^ Z.of_nat idx)%Z by (apply Z.pow_gt_lin_r; lia). lia.
Qed.
Print Assumptions C44_onehot_refuted.

(** Written before the first instruction of an algorithm the check is never made, whatever follows. *)
Theorem C44_stable_first_refuted : forall fuel l c, check_index fuel false (Here [] l) = Some c ->
  forall a m vr pre ga gm oneHot t e n, stable_fails a m vr pre ga gm oneHot t c e n = false.
Proof.
  intros fuel l c H a m vr pre ga gm oneHot t e n. unfold check_index in H. cbn [check_block gather_to gather_list obind no_fsm_yet] in H.
  unfold obind in H. destruct (gather_body fuel false _); [|discriminate]. destruct (generate_states fuel g) as [[g1 r]|]; [|discriminate]. injection H as <-.
  unfold stable_fails, checked. destruct (at_cycle a m vr pre ga gm t n); reflexivity.
Qed.
Print Assumptions C44_stable_first_refuted.

(** Written at the beginning of the body of a loop, the expression changes in every cycle of the loop and the check never fails. After a step it does. *)
Definition loop44 : place := InWhile [] (lt 0 9) (Here [] [ inc 0 ]) [].
Definition step44 : place := InWhile [] (lt 0 9) (Here [ inc 0; SStep ] [ inc 0 ]) [].
Theorem C44_stable_loop_refuted : exists m c m' c',
  compile 100 true [] (fill loop44) = Some m /\ check_index 100 true loop44 = Some c /\
  (forall a vr pre ga gm oneHot t e n, stable_fails a m vr pre ga gm oneHot t c e n = false) /\
  (exists t, considered (alg44 false) m vr44 same44 8 9 t 7 /\ map (value (alg44 false) m vr44 same44 8 9 t (EV 0)) (seq 2 6) = map Some [0; 0; 1; 2; 3; 4]%Z /\
     map (fun n => option_map m_idx (at_cycle (alg44 false) m vr44 same44 8 9 t n)) (seq 3 5) = repeat (Some 2) 5) /\
  compile 100 true [] (fill step44) = Some m' /\ check_index 100 true step44 = Some c' /\
  exists t, considered (alg44 false) m' vr44 same44 8 9 t 6 /\ stable_fails (alg44 false) m' vr44 same44 8 9 false t c' (EV 0) 4 = true.
Proof.
  do 4 eexists. split; [vm_compute; reflexivity|]. split; [vm_compute; reflexivity|]. split; [|split; [|split; [vm_compute; reflexivity|split; [vm_compute; reflexivity|]]]].
  - intros. unfold stable_fails, checked. destruct (at_cycle a _ vr pre ga gm t n); reflexivity.
  - exists (call44 0). split; [|split; vm_compute; reflexivity]. intros k L. do 8 (destruct k as [|k]; [vm_compute; reflexivity|]). lia.
  - exists (call44 0). split; [|vm_compute; reflexivity]. intros k L. do 7 (destruct k as [|k]; [vm_compute; reflexivity|]). lia.
Qed.
Print Assumptions C44_stable_loop_refuted.

(** Written in a conditional, before a step: the check is never made, the block of the conditional is not a state. The same check before the conditional
    is made in the state that contains it. *)
Definition if44 : place := InIf [ inc 0; SStep; inc 0 ] (EC 1) (Here [] [ inc 2 ]) [].
Definition noif44 : place := Here [ inc 0; SStep; inc 0 ] [ SIf (EC 1) [ inc 2 ] ].
Theorem C44_stable_if_refuted : fill if44 = fill noif44 /\ exists m c c', compile 100 true [] (fill if44) = Some m /\
  check_index 100 true if44 = Some c /\ check_index 100 true noif44 = Some c' /\
  (forall a vr pre ga gm oneHot t e n, stable_fails a m vr pre ga gm oneHot t c e n = false) /\
  exists t, considered (alg44 false) m vr44 same44 8 9 t 4 /\ stable_fails (alg44 false) m vr44 same44 8 9 false t c' (EV 0) 3 = true.
Proof.
  split; [reflexivity|]. do 3 eexists. split; [vm_compute; reflexivity|]. split; [vm_compute; reflexivity|]. split; [vm_compute; reflexivity|]. split.
  - intros. unfold stable_fails, checked. destruct (at_cycle a _ vr pre ga gm t n); reflexivity.
  - exists (call44 0). split; [|vm_compute; reflexivity]. intros k L. do 5 (destruct k as [|k]; [vm_compute; reflexivity|]). lia.
Qed.
Print Assumptions C44_stable_if_refuted.

(** #wasin(label), one cycle before: it never fails exactly when all the transitions to its state that happen come from the state of the label. In
    particular it does not fail in the first cycle, whatever the registers contain. Checks in the state the algorithm starts in are excluded, they are
    also reached from the idle state. *)
Theorem C44_wasin_partial : forall a m vr pre ga gm c i, c <> 0 -> c <> f_entry m ->
  ((forall Q D0 D j, cycle m Q D0 j = Some (D, c) -> j = i) -> forall t n, past_fails a m vr pre ga gm false t (Some c) (Some i) 1 n = false) /\
  (forall t n s D, at_cycle a m vr pre ga gm t n = Some s -> m_idx s <> i -> in_cycle a m vr pre ga gm t n = Some (D, c) -> a_auto a = false ->
     t_reset t n = false -> t_run t n = true -> t_reset t (S n) = false -> t_run t (S n) = true ->
     past_fails a m vr pre ga gm false t (Some c) (Some i) 1 (S n) = true).
Proof.
  intros a m vr pre ga gm c i NZ NE. destruct C44_onehot_refuted as [SEL _]. split.
  - intros H t n. destruct (past_fails a m vr pre ga gm false t (Some c) (Some i) 1 n) eqn:F; [exfalso|reflexivity].
    unfold past_fails, checked in F. apply andb_true_iff in F. destruct F as [F1 F2]. destruct (at_cycle a m vr pre ga gm t n) as [s|] eqn:A; [|discriminate].
    rewrite !andb_true_iff, negb_true_iff in F1. destruct F1 as [[[F1 _] _] F3]. apply SEL in F1. destruct n as [|n]; [discriminate|].
    change (S n <? 1) with false in F2. cbn [Nat.sub] in F2. rewrite Nat.sub_0_r in F2. cbv iota in F2. unfold at_cycle in A. cbn [mod_run] in A. unfold obind in A.
    change (mod_run a m vr (ginp ga gm (t_inp t)) pre (t_reset t) (t_run t) n (t_0 t)) with (at_cycle a m vr pre ga gm t n) in A.
    destruct (at_cycle a m vr pre ga gm t n) as [s'|]; [|discriminate]. unfold mod_step in A. unfold obind in A.
    destruct (cycle m _ _ (m_idx s')) as [[D j]|] eqn:C; [|discriminate]. injection A as <-. cbn [m_idx] in F1.
    assert (J : j = c).
    { unfold idx_edge, next_state in F1. destruct (t_reset t n); [congruence|]. destruct (a_auto a); [destruct (m_auto s')|destruct (t_run t n)]; cbn in F1; congruence. }
    subst j. apply H in C. apply negb_true_iff in F2. destruct (SEL (m_idx s') i) as [_ K]. rewrite (K C) in F2. discriminate.
  - intros t n s D A NI I CA R1 U1 R2 U2. pose proof (at_S _ _ _ _ _ _ _ _ _ _ _ A I) as A'. unfold past_fails, checked. rewrite A'. cbn [m_idx].
    change (S n <? 1) with false. cbn [Nat.sub]. rewrite Nat.sub_0_r, A. unfold idx_edge, next_state. rewrite R1, U1, CA, R2, U2. cbn [negb].
    destruct (SEL c c) as [_ K]. rewrite (K eq_refl). destruct (selected false (m_idx s) (Some i)) eqn:X; [apply SEL in X; congruence|]. now destruct (callable a).
Qed.
Print Assumptions C44_wasin_partial.
(** A step, then a conditional step, and the check: it passes when the condition is false, and fails when it holds. *)
Definition was44 : place := Here [ inc 0; SStep; inc 0; SIf (EV 1) [ SStep; inc 0 ]; SStep; inc 0; SStep ] [ inc 0 ].
Definition lab44 : place := Here [ inc 0; SStep ] (skipn 2 (fill was44)).
Example C44_wasin_ex : exists m c i, compile 100 true [] (fill was44) = Some m /\ check_index 100 true was44 = Some (Some c) /\ check_index 100 true lab44 = Some (Some i) /\
  c <> 0 /\ c <> f_entry m /\
  map (past_fails (alg44 false) m vr44 same44 8 9 false (call44 0) (Some c) (Some i) 3) (seq 0 8) = repeat false 8 /\
  map (past_fails (alg44 false) m vr44 same44 8 9 false (call44 1) (Some c) (Some i) 3) (seq 0 8) = [false; false; false; false; false; false; false; true] /\
  map (fun n => option_map m_idx (at_cycle (alg44 false) m vr44 same44 8 9 (call44 1) n)) (seq 0 9) = map Some [2; 0; 1; 2; 5; 3; 4; 6; 0].
Proof. do 3 eexists. split; [vm_compute; reflexivity|]. split; [vm_compute; reflexivity|]. split; [vm_compute; reflexivity|]. vm_compute. repeat split; try lia; try reflexivity. Qed.

(** * Checks do not change what the program computes *)
(** The program without its checks finishes exactly when it does with them, and with the same values. *)
Theorem C44_values_partial : forall fuel unit deps0 p m m' ga gm s,
  compile fuel unit deps0 p = Some m -> compile fuel unit deps0 (strips ga gm p) = Some m' -> structureds false p = true -> covereds p = true ->
  forallb (private ga gm) p = true ->
  (forall n s1, runs m closed closed n s = Some (s1, 0) -> exists n' s2, runs m' closed closed n' s = Some (s2, 0) /\ forall x, x <> ga -> x <> gm -> s2 x = s1 x) /\
  (forall n s2, runs m' closed closed n s = Some (s2, 0) -> exists n' s1, runs m closed closed n' s = Some (s1, 0) /\ forall x, x <> ga -> x <> gm -> s1 x = s2 x).
Proof.
  intros fuel unit deps0 p m m' ga gm s C1 C2 S V P.
  assert (S' : structureds false (strips ga gm p) = true) by (apply (forallb_strips ga gm (structured false)); [intros; now apply strip_structured|exact S]).
  assert (V' : covereds (strips ga gm p) = true) by (apply (forallb_strips ga gm covered); [intros; now apply strip_covered|exact V]).
  assert (G : forall x, x <> ga -> x <> gm -> ghost ga gm x = false) by (intros x N1 N2; unfold ghost; apply orb_false_iff; split; now apply Nat.eqb_neq).
  split.
  - intros n s1 R. destruct (C01_structured_partial _ _ _ _ _ s s1 C1 S V) as [H _]. destruct H as [_ H]. specialize (H (ex_intro _ n R)).
    destruct (strip_exec ga gm false) as [_ E]. destruct (E _ _ _ _ H P s (eqx_refl _ _ s)) as [s2 [X Y]].
    destruct (C01_structured_partial _ _ _ _ _ s s2 C2 S' V') as [[H' _] _]. destruct (H' X) as [n' R']. exists n', s2. split; [exact R'|]. intros x N1 N2. symmetry. apply Y. now apply G.
  - intros n s2 R. destruct (C01_structured_partial _ _ _ _ _ s s2 C2 S' V') as [H _]. destruct H as [_ H]. specialize (H (ex_intro _ n R)).
    destruct (exec_strip ga gm false) as [_ E]. destruct (E _ _ _ _ H p eq_refl P s (eqx_refl _ _ s)) as [s1 [X Y]].
    destruct (C01_structured_partial _ _ _ _ _ s s1 C1 S V) as [[H' _] _]. destruct (H' X) as [n' R']. exists n', s1. split; [exact R'|]. intros x N1 N2. apply Y. now apply G.
Qed.
Print Assumptions C44_values_partial.
Definition pval : list stmt := [ SIf (EV 1) [ SStep; inc 0 ]; chk 8 (lt 0 3); SWhile (lt 0 3) [ inc 0; chk 9 (lt 0 7) ]; inc 2 ].
Example C44_values_ex : exists m m', compile 100 true [] pval = Some m /\ compile 100 true [] (strips 8 9 pval) = Some m' /\ structureds false pval = true /\ covereds pval = true /\
  forallb (private 8 9) pval = true /\ obs 3 (runs m closed closed 20 (st 0 1)) = Some ([3; 1; 1]%Z, 0) /\ obs 3 (runs m' closed closed 20 (st 0 1)) = Some ([3; 1; 1]%Z, 0).
Proof. do 2 eexists. split; [vm_compute; reflexivity|]. split; [vm_compute; reflexivity|]. vm_compute. auto. Qed.

(** But not in the same number of cycles: a state containing only an assertion is not skipped. *)
Theorem C44_timing_refuted : exists m m', compile 100 true [] pval = Some m /\ compile 100 true [] (strips 8 9 pval) = Some m' /\
  obs 3 (runs m' closed closed 5 (st 0 1)) = Some ([3; 1; 1]%Z, 0) /\ exists i, obs 3 (runs m closed closed 5 (st 0 1)) = Some ([3; 1; 0]%Z, S i).
Proof. do 2 eexists. split; [vm_compute; reflexivity|]. split; [vm_compute; reflexivity|]. split; [vm_compute; reflexivity|]. exists 2. vm_compute. reflexivity. Qed.
Print Assumptions C44_timing_refuted.
