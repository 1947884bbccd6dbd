(** Executions of the source with checks, and the executions considered by the formal tools. *)
From Coq Require Import List Bool Arith ZArith Lia.
Import ListNotations.
From Verif Require Import FsmModel FsmEmit FsmLayout FsmRegion FsmStates FsmArms FsmSource FsmCorrect FsmRun FsmBig FsmStep RegModel RegProps FormalModel.

(** * Source *)
(** Along the steps from [a] to [b], in one cycle, a check of [g] is executed while its expression is false. *)
Definition sfails (prog : list stmt) (g : var) (a b : config * store) : Prop :=
  exists e r k s, silents prog a (Run (chk g e :: r) k, s) /\ truth (eval s e) = false /\ silents prog (Run r k, upd s g 1%Z) b.

(** An execution cycle by cycle: for each cycle, whether an assertion was false, whether an assumption was. Nothing is executed once the program
    is over. *)
Inductive exe (prog : list stmt) (env : nat -> store -> store) (ga gm : var) (a : config * store) : config * store -> list (bool * bool) -> Prop :=
| ex_start : exe prog env ga gm a a []
| ex_cycle c s c1 b va vm l : exe prog env ga gm a (c, s) l -> tick c c1 -> silents prog (c1, env (length l) s) b ->
    (va = true <-> sfails prog ga (c1, env (length l) s) b) -> (vm = true <-> sfails prog gm (c1, env (length l) s) b) ->
    exe prog env ga gm a b (l ++ [(va, vm)])
| ex_over c s l : exe prog env ga gm a (c, s) l -> over prog c -> exe prog env ga gm a (c, env (length l) s) (l ++ [(false, false)]).

(** Assignments of a program. *)
Fixpoint asg (st : stmt) : list (var * expr) :=
  match st with
  | SAssign x e => [(x, e)]
  | SBlock l => flat_map asg l
  | SIf _ l => flat_map asg l
  | SIfElse _ l1 l2 => flat_map asg l1 ++ flat_map asg l2
  | SSwitch _ cs => flat_map (fun c => flat_map asg (snd c)) cs
  | SWhile _ l => flat_map asg l
  | SJoin _ rb => rb
  | _ => []
  end.
Definition asgs (l : list stmt) : list (var * expr) := flat_map asg l.
(** The variable [g] is assigned by checks only. *)
Definition checks (g : var) (p : list stmt) : Prop := forall e, In (g, e) (asgs p) -> exists e', e = EB chkf (EV g) e'.

Fixpoint kasg (k : kont) : list (var * expr) :=
  match k with KStop => [] | KSeq _ r k => asgs r ++ kasg k | KLoop e b r k => asgs b ++ asgs r ++ kasg k end.
Definition casg (c : config) : list (var * expr) :=
  match c with
  | Run l k | Jump l k => asgs l ++ kasg k
  | Test e b r k => asgs b ++ asgs r ++ kasg k
  | Wait d rb r k => rb ++ asgs r ++ kasg k
  end.

Lemma asgs_app a b : asgs (a ++ b) = asgs a ++ asgs b.
Proof. apply flat_map_app. Qed.
Lemma asgs_assigns rb : asgs (assigns rb) = rb.
Proof. unfold asgs, assigns. induction rb as [|[x e] rb IH]; [reflexivity|]. cbn. now rewrite IH. Qed.
Lemma brk_asg k r k' : brkk k = Some (r, k') -> incl (asgs r ++ kasg k') (kasg k).
Proof.
  induction k as [|j r0 k IH|e b r0 k IH]; cbn; intros H; [discriminate| |].
  - apply incl_appr. auto.
  - injection H as <- <-. apply incl_appr, incl_refl.
Qed.
Lemma pick_asg v cs l : pick v cs = Some l -> incl (asgs l) (flat_map (fun c => flat_map asg (snd c)) cs).
Proof.
  intros E x Hx. apply pick_in in E. apply in_map_iff in E. destruct E as [c [E I]]. apply in_flat_map. exists c. split; [exact I|]. rewrite E. exact Hx.
Qed.
Lemma find1_asg n : forall st r k l' k', find1 n st r k = Some (l', k') -> incl (asgs l' ++ kasg k') (asg st ++ asgs r ++ kasg k).
Proof.
  assert (FL : forall l, Forall (fun st => forall r k l' k', find1 n st r k = Some (l', k') -> incl (asgs l' ++ kasg k') (asg st ++ asgs r ++ kasg k)) l ->
    forall k l' k', find n l k = Some (l', k') -> incl (asgs l' ++ kasg k') (asgs l ++ kasg k)).
  { intros l F. induction F as [|st l H F IH]; intros k l' k' E; [discriminate|]. cbn [find] in E. change (asgs (st :: l)) with (asg st ++ asgs l). rewrite <- app_assoc.
    destruct (find1 n st l k) as [[l1 k1]|] eqn:E1; cbn in E.
    - injection E as <- <-. now apply H.
    - apply incl_appr. now apply IH. }
  intros st. induction st using stmt_ind'; intros r k l' k' E; try discriminate; cbn [find1 asg] in *.
  - rewrite find1_inner in E. apply (FL _ H) in E. exact E.
  - rewrite find1_inner in E. apply (FL _ H) in E. exact E.
  - rewrite !find1_inner in E. destruct (find n l1 _) as [[l3 k3]|] eqn:E1; cbn in E.
    + injection E as <- <-. apply (FL _ H) in E1. cbn [kasg] in E1. intros x Hx. apply E1 in Hx. rewrite !in_app_iff in *. unfold asgs in *. tauto.
    + apply (FL _ H0) in E. cbn [kasg] in E. intros x Hx. apply E in Hx. rewrite !in_app_iff in *. unfold asgs in *. tauto.
  - change (find1 n (SSwitch e cs) r k = Some (l', k')) in E. rewrite find1_switch in E. revert E. generalize (negb (timeless (SSwitch e cs))). intros j E.
    induction H as [|[v l] cs HL HF IH]; [discriminate|]. cbn [findcs flat_map snd] in *. destruct (find n l _) as [[l3 k3]|] eqn:E1; cbn in E.
    + injection E as <- <-. apply (FL _ HL) in E1. cbn [kasg] in E1. intros x Hx. apply E1 in Hx. rewrite !in_app_iff in *. unfold asgs in *. tauto.
    + specialize (IH E). intros x Hx. apply IH in Hx. rewrite !in_app_iff in *. tauto.
  - rewrite find1_inner in E. apply (FL _ H) in E. cbn [kasg] in E. intros x Hx. apply E in Hx. rewrite !in_app_iff in *. unfold asgs in *. tauto.
  - destruct (Nat.eqb n0 n); [|discriminate]. injection E as <- <-. apply incl_refl.
Qed.
Lemma find_asg n l k l' k' : find n l k = Some (l', k') -> incl (asgs l' ++ kasg k') (asgs l ++ kasg k).
Proof.
  revert k. induction l as [|st l IH]; intros k E; [discriminate|]. cbn [find] in E. change (asgs (st :: l)) with (asg st ++ asgs l). rewrite <- app_assoc.
  destruct (find1 n st l k) as [[l1 k1]|] eqn:E1; cbn in E.
  - injection E as <- <-. now apply find1_asg in E1.
  - apply incl_appr. now apply IH.
Qed.

(** Steps: assignments come from the configuration or from the program. *)
Lemma silent_asg prog a b : silent prog a b -> incl (casg (fst b)) (casg (fst a) ++ asgs prog).
Proof.
  intros H. destruct H; cbn [fst casg]; cbn [asgs flat_map asg kasg]; fold asgs; intros z Hz;
    repeat match goal with |- context [if ?b then _ else _] => destruct b | H : context [if ?b then _ else _] |- _ => destruct b end;
    cbn [casg kasg asgs flat_map asg] in *; fold asgs in *; rewrite ?asgs_app, ?asgs_assigns in *;
    try (rewrite !in_app_iff in *; unfold asgs in *; cbn [In] in *; tauto).
  - destruct (pick (eval s e) cs) as [l0|] eqn:E; [|cbn in Hz; rewrite !in_app_iff in *; tauto].
    rewrite in_app_iff in Hz. destruct Hz as [Hz|Hz]; [apply (pick_asg _ _ _ E) in Hz|]; rewrite !in_app_iff in *; unfold asgs in *; tauto.
  - apply (brk_asg _ _ _ H) in Hz. rewrite !in_app_iff in *. tauto.
  - apply (find_asg _ _ _ _ _ H) in Hz. cbn in Hz. rewrite app_nil_r in Hz. rewrite !in_app_iff in *. tauto.
  - apply (brk_asg _ _ _ H) in Hz. rewrite !in_app_iff in *. tauto.
  - apply (find_asg _ _ _ _ _ H) in Hz. cbn in Hz. rewrite app_nil_r in Hz. rewrite !in_app_iff in *. tauto.
Qed.
Lemma silents_asg prog a b : silents prog a b -> incl (casg (fst b)) (casg (fst a) ++ asgs prog).
Proof.
  induction 1 as [c|a b c H1 H2 IH]; [apply incl_appl, incl_refl|]. intros z Hz. apply IH in Hz. apply in_app_iff in Hz. destruct Hz as [Hz|Hz]; [|apply in_app_iff; auto].
  now apply (silent_asg _ _ _ H1).
Qed.
Lemma tick_asg c c1 : tick c c1 -> incl (casg c1) (casg c).
Proof. intros H. destruct H; cbn [casg asgs flat_map asg]; try apply incl_refl; rewrite <- ?app_assoc; apply incl_refl. Qed.

Definition cfg_checks (g : var) (c : config) : Prop := forall e, In (g, e) (casg c) -> exists e', e = EB chkf (EV g) e'.

(** The variable of the checks tells whether a check was false. *)
Lemma silent_store prog a b : silent prog a b ->
  snd b = snd a \/ exists x e r k, fst a = Run (SAssign x e :: r) k /\ fst b = Run r k /\ snd b = upd (snd a) x (eval (snd a) e).
Proof. intros H. destruct H; cbn; auto. right. repeat eexists. Qed.
Lemma truth_0 : truth 0 = false. Proof. reflexivity. Qed.
Lemma sfails_one prog g a b c : silent prog a b -> sfails prog g b c -> sfails prog g a c.
Proof. intros H [e [r [k [s [H1 [H2 H3]]]]]]. exists e, r, k, s. split; [eapply ss_step; eassumption|auto]. Qed.
Lemma ghost_keeps prog g : checks g prog -> forall a b, silents prog a b -> cfg_checks g (fst a) -> snd a g <> 0%Z -> snd b g <> 0%Z.
Proof.
  intros CP a b H. induction H as [c|a b c H1 H2 IH]; intros C N; [exact N|]. apply IH.
  - intros e He. apply (silent_asg _ _ _ H1), in_app_iff in He. destruct He; auto.
  - destruct (silent_store _ _ _ H1) as [E|[x [e [r [k [E1 [E2 E3]]]]]]]; [now rewrite E|]. rewrite E3. unfold upd. destruct (Nat.eqb_spec g x) as [ ->|]; [|exact N].
    destruct (C e) as [e' ->]; [rewrite E1; cbn; auto|]. cbn. unfold chkf. destruct (truth (eval (snd a) e')); [exact N|discriminate].
Qed.
Lemma ghost_iff prog g : checks g prog -> forall a b, silents prog a b -> cfg_checks g (fst a) -> snd a g = 0%Z -> (snd b g <> 0%Z <-> sfails prog g a b).
Proof.
  intros CP a b H. split.
  - revert H0 H1. induction H as [c|a b c H1 H2 IH]; intros C Z N; [contradiction|].
    assert (C' : cfg_checks g (fst b)) by (intros e He; apply (silent_asg _ _ _ H1), in_app_iff in He; destruct He; auto).
    destruct (Z.eq_dec (snd b g) 0%Z) as [Z'|Z']; [eapply sfails_one; eauto|].
    destruct (silent_store _ _ _ H1) as [E|[x [e [r [k [E1 [E2 E3]]]]]]]; [rewrite E in Z'; contradiction|].
    destruct (Nat.eqb_spec g x) as [ ->|NE]; [|exfalso; apply Z'; rewrite E3; unfold upd; apply Nat.eqb_neq in NE; now rewrite NE].
    destruct (C e) as [e' ->]; [rewrite E1; cbn; auto|]. destruct (truth (eval (snd a) e')) eqn:T.
    + exfalso. apply Z'. rewrite E3. unfold upd. rewrite Nat.eqb_refl. cbn. unfold chkf. now rewrite T.
    + exists e', r, k, (snd a). split; [destruct a as [ca sa]; cbn in *; subst ca; apply ss_refl|]. split; [exact T|].
      destruct b as [cb sb]. cbn in E2, E3. subst cb sb. cbn in H2. unfold chkf in H2. rewrite T in H2. exact H2.
  - intros [e [r [k [s [S1 [T S2]]]]]]. eapply (ghost_keeps prog g CP _ _ S2).
    + intros e0 He. cbn [fst casg] in He. assert (K : In (g, e0) (casg (fst (Run (chk g e :: r) k, s)))) by (cbn; auto).
      apply (silents_asg _ _ _ S1), in_app_iff in K. destruct K; auto.
    + cbn. unfold upd. rewrite Nat.eqb_refl. discriminate.
Qed.

(** * The module and the source *)
Lemma at_S a m vr pre ga gm t n s D i : at_cycle a m vr pre ga gm t n = Some s -> in_cycle a m vr pre ga gm t n = Some (D, i) ->
  at_cycle a m vr pre ga gm t (S n) = Some {| m_q := mod_edge vr (t_reset t n) (t_run t n) D;
    m_idx := idx_edge a (t_reset t n) (m_auto s) (t_run t n) (f_entry m) i; m_auto := auto_edge (t_reset t n) |}.
Proof.
  unfold at_cycle, in_cycle. intros H1 H2. cbn [mod_run]. unfold at_cycle in H2. rewrite H1 in H2. cbn [obind] in H2. rewrite H1. cbn [obind]. unfold mod_step.
  rewrite H2. reflexivity.
Qed.

Record Checked (fuel : nat) (unit : bool) (deps0 : list var) (p : list stmt) (m : fsm) (pre : nat -> store -> store) (ga gm : var) : Prop := {
  k_comp : compile fuel unit deps0 p = Some m;
  k_legal : Legal deps0 pre p;
  k_ga : checks ga p;
  k_gm : checks gm p;
  k_pre : forall t s, pre t s ga = s ga /\ pre t s gm = s gm }.

Section Link.
  Variables (a : alg) (fuel : nat) (unit : bool) (deps0 : list var) (p : list stmt) (m : fsm) (vr : var -> option upd_rhs) (pre : nat -> store -> store) (ga gm : var).
  Hypothesis CA : a_auto a = false.
  Hypothesis K : Checked fuel unit deps0 p m pre ga gm.
  Notation prog := (body unit p).
  Notation at_cycle := (at_cycle a m vr pre ga gm).
  Notation in_cycle := (in_cycle a m vr pre ga gm).
  Definition senv (t : trace) (k : nat) (u : nat) (s : store) : store := pre (k + u) (ginp ga gm (t_inp t) (k + u) s).

  Lemma body_checks g : checks g p -> checks g prog.
  Proof. unfold checks, body. destruct unit; [|auto]. cbn. rewrite app_nil_r. auto. Qed.
  Lemma start_checks g : checks g p -> cfg_checks g (Run (SStep :: prog) KStop).
  Proof. intros H e He. cbn in He. rewrite app_nil_r in He. now apply (body_checks g H). Qed.
  Lemma exe_checks g env s0 b l : checks g p -> exe prog env ga gm (Run (SStep :: prog) KStop, s0) b l -> cfg_checks g (fst b).
  Proof.
    intros H E. induction E as [|c s c1 b va vm l E IH T S _ _|c s l E IH O]; [now apply start_checks| |exact IH].
    intros e He. apply (silents_asg _ _ _ S), in_app_iff in He. destruct He as [He|He]; [|now apply (body_checks g H)]. apply IH. now apply (tick_asg _ _ T).
  Qed.
  Lemma senv_0 t k u s : senv t k u s ga = 0%Z /\ senv t k u s gm = 0%Z.
  Proof.
    unfold senv. destruct (k_pre _ _ _ _ _ _ _ _ K (k + u) (ginp ga gm (t_inp t) (k + u) s)) as [ -> ->]. unfold ginp, upd. rewrite !Nat.eqb_refl.
    split; [|reflexivity]. now destruct (Nat.eqb ga gm).
  Qed.
  Definition flags (D : store) : bool * bool := (negb (Z.eqb (D ga) 0), negb (Z.eqb (D gm) 0)).

  (** Once started, without reset and with run high, the module follows an execution of the source, and the checks that are false are those of the source. *)
  Lemma link t k s0 : at_cycle t k = Some s0 -> m_idx s0 = f_entry m ->
    forall n, (forall j, k <= j < k + n -> t_reset t j = false /\ t_run t j = true) ->
    exists I c l s, Follows prog (waitss p) deps0 m I /\ exe prog (senv t k) ga gm (Run (SStep :: prog) KStop, m_q s0) (c, m_q s) l /\ length l = n /\
      at_cycle t (k + n) = Some s /\ I (m_idx s) c /\
      forall u, u < n -> exists D i, in_cycle t (k + u) = Some (D, i) /\ nth_error l u = Some (flags D).
  Proof.
    intros A0 E0 n.
    destruct (follow_step _ _ _ _ _ (k_comp _ _ _ _ _ _ _ _ K) (l_jump _ _ _ (k_legal _ _ _ _ _ _ _ _ K)) (l_cover _ _ _ (k_legal _ _ _ _ _ _ _ _ K))) as [I F].
    intros H. exists I. induction n as [|n IH].
    - exists (Run (SStep :: prog) KStop), [], s0. split; [exact F|]. split; [constructor|]. split; [reflexivity|]. rewrite Nat.add_0_r. split; [exact A0|]. split; [rewrite E0; apply (fo_entry _ _ _ _ _ F)|]. intros u Hu; lia.
    - destruct IH as [c [l [s [_ [X [L [A [Ic N]]]]]]]]; [intros j Hj; apply H; lia|]. destruct (H (k + n)) as [R1 R2]; [lia|].
      set (Q := ginp ga gm (t_inp t) (k + n) (m_q s)). set (D0 := pre (k + n) Q).
      assert (SE : senv t k (length l) (m_q s) = D0) by (rewrite L; reflexivity).
      assert (IC : in_cycle t (k + n) = cycle m Q D0 (m_idx s)) by (unfold FormalModel.in_cycle; rewrite A; reflexivity).
      assert (G0 : D0 ga = 0%Z /\ D0 gm = 0%Z) by (rewrite <- SE; apply senv_0).
      destruct (Nat.eq_dec (m_idx s) 0) as [Z|NZ].
      + assert (IC' : in_cycle t (k + n) = Some (D0, 0)) by (rewrite IC, Z; reflexivity). pose proof (at_S _ _ _ _ _ _ _ _ _ _ _ A IC') as A'.
        rewrite Nat.add_succ_r. exists c, (l ++ [flags D0]). eexists. split; [exact F|]. unfold flags. destruct G0 as [ -> ->]. cbn [Z.eqb negb].
        split; [|split; [rewrite app_length; cbn; lia|split; [exact A'|split]]].
        * cbn [m_q]. unfold mod_edge. rewrite R1, R2. cbn [orb negb]. rewrite <- SE. apply ex_over; [exact X|]. apply (fo_over _ _ _ _ _ F). now rewrite <- Z.
        * cbn [m_idx]. unfold idx_edge, next_state. rewrite R1, R2, CA. cbn [negb]. now rewrite Z in Ic.
        * intros u Hu. destruct (Nat.eq_dec u n) as [ ->|Nu].
          -- exists D0, 0. split; [exact IC'|]. rewrite nth_error_app2, L, Nat.sub_diag by lia. cbn. unfold flags. destruct (senv_0 t k (length l) (m_q s)) as [Y1 Y2]. rewrite SE in Y1, Y2. now rewrite Y1, Y2.
          -- destruct (N u) as [D [i [N1 N2]]]; [lia|]. exists D, i. split; [exact N1|]. now rewrite nth_error_app1 by lia.
      + assert (AG : agree Q D0 deps0) by (intros x Hx; unfold D0; now apply (l_pre _ _ _ (k_legal _ _ _ _ _ _ _ _ K))).
        destruct (fo_cycle _ _ _ _ _ F (m_idx s) c Q D0 Ic NZ AG (l_wait _ _ _ (k_legal _ _ _ _ _ _ _ _ K))) as [D [i [c1 [c2 [C1 [C2 [C3 C4]]]]]]].
        assert (IC' : in_cycle t (k + n) = Some (D, i)) by (rewrite IC; exact C1). pose proof (at_S _ _ _ _ _ _ _ _ _ _ _ A IC') as A'.
        assert (FL : forall g, checks g p -> D0 g = 0%Z -> (negb (Z.eqb (D g) 0) = true <-> sfails prog g (c1, D0) (c2, D))).
        { intros g Hg Z. rewrite <- (ghost_iff prog g (body_checks g Hg) _ _ C3); cbn [fst snd]; [rewrite negb_true_iff, Z.eqb_neq; reflexivity| |exact Z].
          intros e He. apply (tick_asg _ _ C2) in He. revert e He. exact (exe_checks g _ _ _ _ Hg X). }
        rewrite Nat.add_succ_r. exists c2, (l ++ [flags D]). eexists. split; [exact F|].
        split; [|split; [rewrite app_length; cbn; lia|split; [exact A'|split]]].
        * cbn [m_q]. unfold mod_edge. rewrite R1, R2. cbn [orb negb]. unfold flags.
          eapply ex_cycle; [exact X|exact C2| | |]; rewrite SE; [exact C3|apply FL; [exact (k_ga _ _ _ _ _ _ _ _ K)|apply G0]|apply FL; [exact (k_gm _ _ _ _ _ _ _ _ K)|apply G0]].
        * cbn [m_idx]. unfold idx_edge, next_state. rewrite R1, R2, CA. cbn [negb]. exact C4.
        * intros u Hu. destruct (Nat.eq_dec u n) as [ ->|Nu].
          -- exists D, i. split; [exact IC'|]. now rewrite nth_error_app2, L, Nat.sub_diag by lia.
          -- destruct (N u) as [D' [i' [N1 N2]]]; [lia|]. exists D', i'. split; [exact N1|]. now rewrite nth_error_app1 by lia.
  Qed.
End Link.

(** * The executions considered *)
Section Traces.
  Variables (a : alg) (fuel : nat) (unit : bool) (deps0 : list var) (p : list stmt) (m : fsm) (vr : var -> option upd_rhs) (pre : nat -> store -> store) (ga gm : var).
  Hypothesis K : Checked fuel unit deps0 p m pre ga gm.
  Notation prog := (body unit p).
  Notation at_cycle := (at_cycle a m vr pre ga gm).
  Notation in_cycle := (in_cycle a m vr pre ga gm).
  Notation assumed := (assumed a m vr pre ga gm).
  Notation fails := (fails a m vr pre ga gm).

  Lemma pre_0 n inp q : pre n (ginp ga gm inp n q) ga = 0%Z /\ pre n (ginp ga gm inp n q) gm = 0%Z.
  Proof.
    destruct (k_pre _ _ _ _ _ _ _ _ K n (ginp ga gm inp n q)) as [ -> ->]. unfold ginp, upd. rewrite !Nat.eqb_refl. split; [|reflexivity]. now destruct (Nat.eqb ga gm).
  Qed.
  Lemma in_idle t n s : at_cycle t n = Some s -> m_idx s = 0 -> in_cycle t n = Some (pre n (ginp ga gm (t_inp t) n (m_q s)), 0).
  Proof. intros A Z. unfold FormalModel.in_cycle. rewrite A. cbn [obind]. rewrite Z. reflexivity. Qed.
  Lemma entry_nz : f_entry m <> 0.
  Proof.
    destruct (follow_step _ _ _ _ _ (k_comp _ _ _ _ _ _ _ _ K) (l_jump _ _ _ (k_legal _ _ _ _ _ _ _ _ K)) (l_cover _ _ _ (k_legal _ _ _ _ _ _ _ _ K))) as [I F].
    apply (fo_entry _ _ _ _ _ F).
  Qed.

  (** Whatever reset and run do, the default case is never selected after the first cycle. *)
  Lemma never_default t : t_reset t 0 = true -> in_cycle t 0 <> None -> forall n, exists s D i, at_cycle t n = Some s /\ in_cycle t n = Some (D, i).
  Proof.
    intros R0 N0.
    destruct (follow_step _ _ _ _ _ (k_comp _ _ _ _ _ _ _ _ K) (l_jump _ _ _ (k_legal _ _ _ _ _ _ _ _ K)) (l_cover _ _ _ (k_legal _ _ _ _ _ _ _ _ K))) as [I F].
    assert (ST : forall n s, at_cycle t n = Some s -> (m_idx s = 0 \/ exists c, I (m_idx s) c) ->
      exists D i, in_cycle t n = Some (D, i) /\ (i = 0 \/ exists c, I i c)).
    { intros n s A [Z|[c Ic]]; [rewrite (in_idle _ _ _ A Z); eauto|]. destruct (Nat.eq_dec (m_idx s) 0) as [Z|NZ]; [rewrite (in_idle _ _ _ A Z); eauto|].
      set (Q := ginp ga gm (t_inp t) n (m_q s)).
      assert (AG : agree Q (pre n Q) deps0) by (intros x Hx; now apply (l_pre _ _ _ (k_legal _ _ _ _ _ _ _ _ K))).
      destruct (fo_cycle _ _ _ _ _ F _ c Q (pre n Q) Ic NZ AG (l_wait _ _ _ (k_legal _ _ _ _ _ _ _ _ K))) as [D [i [c1 [c2 [C1 [_ [_ C4]]]]]]].
      exists D, i. split; [|eauto]. unfold FormalModel.in_cycle. rewrite A. exact C1. }
    assert (INV : forall n, exists s, at_cycle t (S n) = Some s /\ (m_idx s = 0 \/ exists c, I (m_idx s) c)).
    { induction n as [|n [s [A V]]].
      - destruct (in_cycle t 0) as [[D i]|] eqn:E; [|contradiction]. eexists. split; [eapply at_S; [reflexivity|exact E]|]. left. cbn [m_idx]. unfold idx_edge. now rewrite R0.
      - destruct (ST _ _ A V) as [D [i [E V']]]. eexists. split; [eapply at_S; [exact A|exact E]|]. cbn [m_idx]. unfold idx_edge, next_state.
        destruct (t_reset t (S n)); [now left|]. destruct (a_auto a); [destruct (m_auto s)|destruct (t_run t (S n))]; cbn [negb]; auto; right; eexists; apply (fo_entry _ _ _ _ _ F). }
    intros [|n].
    - destruct (in_cycle t 0) as [[D i]|] eqn:E; [|contradiction]. exists (t_0 t), D, i. split; reflexivity.
    - destruct (INV n) as [s [A V]]. destruct (ST _ _ A V) as [D [i [E _]]]. eauto.
  Qed.

  Lemma assumed_at t n : assumed t n = true -> exists s D i, at_cycle t n = Some s /\ in_cycle t n = Some (D, i) /\
    (n = 0 -> t_reset t 0 = true) /\ (n <> 0 -> (if callable a then t_run t n || done a s else done a s) = true) /\ (quiet t n = false -> D gm = 0%Z).
  Proof.
    unfold FormalModel.assumed. destruct (at_cycle t n) as [s|]; [|discriminate]. destruct (in_cycle t n) as [[D i]|]; [|discriminate].
    rewrite !andb_true_iff, !orb_true_iff. intros [[H1 H2] H3]. exists s, D, i. split; [reflexivity|]. split; [reflexivity|]. split; [|split].
    - intros ->. destruct H1 as [H1|H1]; [discriminate|exact H1].
    - intros N. destruct H2 as [H2|H2]; [apply Nat.eqb_eq in H2; contradiction|exact H2].
    - intros E. destruct H3 as [H3|H3]; [congruence|now apply Z.eqb_eq].
  Qed.

  (** An algorithm that starts by itself: no second cycle. *)
  Lemma auto_vacuous t n : a_auto a = true -> considered a m vr pre ga gm t n -> n = 0.
  Proof.
    intros A C. destruct n as [|n]; [reflexivity|]. exfalso.
    destruct (assumed_at t 0 (C 0 ltac:(lia))) as [s [D [i [A0 [I0 [R0 _]]]]]]. specialize (R0 eq_refl).
    destruct (assumed_at t 1 (C 1 ltac:(lia))) as [s1 [D1 [i1 [A1 [_ [_ [G _]]]]]]]. specialize (G ltac:(lia)).
    rewrite (at_S _ _ _ _ _ _ _ _ _ _ _ A0 I0) in A1. injection A1 as <-. unfold callable, done, auto_edge in G. rewrite A, R0 in G. cbn in G. discriminate.
  Qed.

  Hypothesis CA : a_auto a = false.
  Hypothesis FS : a_fsm a = true.
  Lemma callable_true : callable a = true. Proof. unfold callable. now rewrite CA, FS. Qed.

  (** A cycle where a state is active is in an execution started by the last cycle where run was low. *)
  Lemma last_start t : t_reset t 0 = true -> forall n s, at_cycle t n = Some s -> 1 <= n -> m_idx s <> 0 ->
    exists k s0, 1 <= k <= n /\ t_reset t (k - 1) = false /\ t_run t (k - 1) = false /\ at_cycle t k = Some s0 /\ m_idx s0 = f_entry m /\
      (forall x i, vr x = Some (Mux OnResetOrNotRun i) -> m_q s0 x = i) /\ forall j, k <= j < n -> t_reset t j = false /\ t_run t j = true.
  Proof.
    intros R0. induction n as [|n IH]; intros s A L NZ; [lia|].
    assert (P : exists s' D i, at_cycle t n = Some s' /\ in_cycle t n = Some (D, i)).
    { revert A. unfold FormalModel.in_cycle, FormalModel.at_cycle. cbn [mod_run]. destruct (mod_run _ _ _ _ _ _ _ n _) as [s'|]; [|discriminate]. cbn [obind]. unfold mod_step.
      destruct (cycle _ _ _ _) as [[D i]|]; [|discriminate]. eauto. }
    destruct P as [s' [D [i [A' I']]]]. pose proof (at_S _ _ _ _ _ _ _ _ _ _ _ A' I') as A2. rewrite A in A2. injection A2 as ->. cbn [m_idx] in NZ. unfold idx_edge, next_state in NZ. rewrite CA in NZ.
    destruct (t_reset t n) eqn:R; [contradiction|]. destruct (t_run t n) eqn:U; cbn [negb] in NZ.
    - destruct n as [|n]; [congruence|].
      destruct (IH s' A' ltac:(lia)) as [k [s0 [H1 [H2 [H3 [H4 [H5 [H6 H7]]]]]]]].
      { intros Z. rewrite (in_idle _ _ _ A' Z) in I'. injection I' as _ <-. contradiction. }
      exists k, s0. split; [lia|]. repeat split; auto. all: destruct (Nat.eq_dec j (S n)) as [ ->|]; [assumption|apply H7; lia].
    - exists (S n). eexists. split; [lia|]. replace (S n - 1) with n by lia. split; [exact R|]. split; [exact U|]. split; [exact A|]. split; [|split].
      + cbn [m_idx]. unfold idx_edge, next_state. now rewrite CA.
      + intros x j E. cbn [m_q]. now rewrite mod_edge_at, E.
      + intros j Hj. lia.
  Qed.
End Traces.

(** * The program without its checks *)
Section Strip.
  Variables ga gm : var.
  Definition ghost (x : var) : bool := Nat.eqb x ga || Nat.eqb x gm.
  Fixpoint strip (st : stmt) : list stmt :=
    match st with
    | SAssign x e => if ghost x then [] else [SAssign x e]
    | SBlock l => [SBlock (flat_map strip l)]
    | SIf e l => [SIf e (flat_map strip l)]
    | SIfElse e l1 l2 => [SIfElse e (flat_map strip l1) (flat_map strip l2)]
    | SSwitch e cs => [SSwitch e (map (fun c => (fst c, flat_map strip (snd c))) cs)]
    | SWhile e l => [SWhile e (flat_map strip l)]
    | st => [st]
    end.
  Definition strips (l : list stmt) : list stmt := flat_map strip l.
  (** The variables of the checks are read by checks only. *)
  Definition unread (e : expr) : bool := forallb (fun x => negb (ghost x)) (evars e).
  Fixpoint private (st : stmt) : bool :=
    match st with
    | SAssign x e => ghost x || unread e
    | SBlock l => forallb private l
    | SIf e l => unread e && forallb private l
    | SIfElse e l1 l2 => unread e && forallb private l1 && forallb private l2
    | SSwitch e cs => unread e && forallb (fun c => forallb private (snd c)) cs
    | SWhile e l => unread e && forallb private l
    | SJoin d rb => unread d && forallb (fun r => negb (ghost (fst r)) && unread (snd r)) rb
    | _ => true
    end.
  Definition eqx (s t : store) : Prop := forall x, ghost x = false -> s x = t x.
  Lemma eqx_refl s : eqx s s. Proof. intros x _. reflexivity. Qed.
  Lemma eqx_sym s t : eqx s t -> eqx t s. Proof. intros H x Hx. symmetry. now apply H. Qed.
  Lemma eqx_trans s t u : eqx s t -> eqx t u -> eqx s u. Proof. intros H1 H2 x Hx. rewrite H1, H2; auto. Qed.
  Lemma eqx_eval s t e : eqx s t -> unread e = true -> eval s e = eval t e.
  Proof. intros H U. apply FsmRun.eval_agree. intros x Hx. apply H. unfold unread in U. rewrite forallb_forall in U. apply U in Hx. now apply negb_true_iff. Qed.
  Lemma eqx_upd s t x e : eqx s t -> unread e = true -> eqx (upd s x (eval s e)) (upd t x (eval t e)).
  Proof. intros H U y Hy. unfold upd. rewrite (eqx_eval s t e H U). destruct (Nat.eqb y x); auto. Qed.
  Lemma eqx_ghost s x v : ghost x = true -> eqx (upd s x v) s.
  Proof. intros G y Hy. unfold upd. destruct (Nat.eqb_spec y x) as [ ->|]; [congruence|reflexivity]. Qed.
  Lemma pick_map v (cs : list (option Z * list stmt)) : pick v (map (fun c => (fst c, flat_map strip (snd c))) cs) = option_map strips (pick v cs).
  Proof.
    assert (E1 : forall cs : list (option Z * list stmt), pick_case v (map (fun c => (fst c, flat_map strip (snd c))) cs) = option_map strips (pick_case v cs)).
    { induction cs0 as [|[[z|] l] cs0 IH]; cbn; [reflexivity| |exact IH]. destruct (Z.eqb z v); [reflexivity|exact IH]. }
    assert (E2 : forall cs : list (option Z * list stmt), pick_default (map (fun c => (fst c, flat_map strip (snd c))) cs) = option_map strips (pick_default cs)).
    { induction cs0 as [|[[z|] l] cs0 IH]; cbn; [reflexivity|exact IH|reflexivity]. }
    unfold pick. rewrite E1, E2. destruct (pick_case v cs); reflexivity.
  Qed.
  Lemma private_pick v cs : forallb (fun c => forallb private (snd c)) cs = true -> forallb private (match pick v cs with Some l => l | None => [] end) = true.
  Proof.
    intros H. destruct (pick v cs) as [l|] eqn:E; [|reflexivity]. apply pick_in in E. apply in_map_iff in E. destruct E as [c [E I]]. rewrite forallb_forall in H. specialize (H c I).
    cbn beta in H. now rewrite E in H.
  Qed.
  Lemma exec_app ret l1 l2 s s1 o s2 : exec ret l1 s Normal s1 -> exec ret l2 s1 o s2 -> exec ret (l1 ++ l2) s o s2.
  Proof.
    intros H. remember Normal as o1 eqn:E. revert E. induction H as [s0|x r s0 s3 o0 s4 X H IH|]; intros E K; [exact K| |discriminate]. cbn. econstructor; [exact X|]. now apply IH.
  Qed.
  Lemma exec_one ret x s o s' : exec1 ret x s o s' -> exec ret [x] s o s'.
  Proof. intros H. destruct o; [econstructor; [exact H|constructor]|now apply x_broke]. Qed.
  Lemma exec_app_broke ret l1 l2 s s1 : exec ret l1 s Broke s1 -> exec ret (l1 ++ l2) s Broke s1.
  Proof.
    intros H. remember Broke as o1 eqn:E. revert E. induction H as [s0|x r s0 s3 o0 s4 X H IH|x r s0 s3 X]; intros E; [discriminate| |]; cbn; [econstructor; [exact X|]; now apply IH|now apply x_broke].
  Qed.

  Lemma strip_exec ret :
    (forall st s o s', exec1 ret st s o s' -> private st = true -> forall t, eqx s t -> exists t', exec ret (strip st) t o t' /\ eqx s' t') /\
    (forall l s o s', exec ret l s o s' -> forallb private l = true -> forall t, eqx s t -> exists t', exec ret (strips l) t o t' /\ eqx s' t').
  Proof.
    apply exec_mutind; cbn [private forallb strip].
    - intros x e s P t H. destruct (ghost x) eqn:G; [exists t; split; [constructor|]|].
      + eapply eqx_trans; [now apply eqx_ghost|exact H].
      + cbn in P. eexists. split; [apply exec_one; constructor|]. now apply eqx_upd.
    - intros l s o s' _ IH P t H. destruct (IH P t H) as [t' [E1 E2]]. exists t'. split; [apply exec_one; now constructor|exact E2].
    - intros e l s o s' _ IH P t H. apply andb_true_iff in P as [U P]. rewrite (eqx_eval s t e H U) in IH. destruct (IH ltac:(destruct (truth _); auto) t H) as [t' [E1 E2]].
      exists t'. split; [|exact E2]. apply exec_one. constructor. destruct (truth (eval t e)); exact E1.
    - intros e l1 l2 s o s' _ IH P t H. apply andb_true_iff in P as [P P2]. apply andb_true_iff in P as [U P]. rewrite (eqx_eval s t e H U) in IH.
      destruct (IH ltac:(destruct (truth _); auto) t H) as [t' [E1 E2]]. exists t'. split; [|exact E2]. apply exec_one. constructor. destruct (truth (eval t e)); exact E1.
    - intros e cs s o s' _ IH P t H. apply andb_true_iff in P as [U P]. rewrite (eqx_eval s t e H U) in IH. destruct (IH (private_pick _ _ P) t H) as [t' [E1 E2]].
      exists t'. split; [|exact E2]. apply exec_one. constructor. rewrite pick_map. destruct (pick (eval t e) cs); exact E1.
    - intros e b s T P t H. apply andb_true_iff in P as [U P]. exists t. split; [|exact H]. apply exec_one. constructor. now rewrite <- (eqx_eval s t e H U).
    - intros e b s s1 s2 T _ IH1 _ IH2 P t H. pose proof P as P0. apply andb_true_iff in P as [U P]. destruct (IH1 P t H) as [t1 [E1 H1]]. destruct (IH2 P0 t1 H1) as [t2 [E2 H2]].
      exists t2. split; [|exact H2]. apply exec_one. eapply x_while_next; [now rewrite <- (eqx_eval s t e H U)|exact E1|]. inversion E2; subst.
      match goal with H : exec _ [] _ _ _ |- _ => inversion H; subst end. assumption.
    - intros e b s s1 T _ IH P t H. apply andb_true_iff in P as [U P]. destruct (IH P t H) as [t1 [E1 H1]]. exists t1. split; [|exact H1]. apply exec_one.
      apply x_while_break; [now rewrite <- (eqx_eval s t e H U)|exact E1].
    - intros s _ t H. exists t. split; [apply exec_one; constructor|exact H].
    - intros s _ t H. exists t. split; [apply exec_one; constructor|exact H].
    - intros n s _ t H. exists t. split; [apply exec_one; constructor|exact H].
    - intros s R _ t H. exists t. split; [apply exec_one; now constructor|exact H].
    - intros s _ t H. exists t. split; [constructor|exact H].
    - intros x r s s1 o s2 _ IH1 _ IH2 P t H. apply andb_true_iff in P as [P1 P2]. destruct (IH1 P1 t H) as [t1 [E1 H1]]. destruct (IH2 P2 t1 H1) as [t2 [E2 H2]].
      exists t2. split; [|exact H2]. eapply exec_app; eassumption.
    - intros x r s s1 _ IH P t H. apply andb_true_iff in P as [P1 P2]. destruct (IH P1 t H) as [t1 [E1 H1]]. exists t1. split; [|exact H1]. now apply exec_app_broke.
  Qed.

  (** And back: checks always finish. *)
  Definition ghosts (l : list stmt) : Prop := Forall (fun st => exists x e, st = SAssign x e /\ ghost x = true) l.
  Lemma ghosts_exec ret l : ghosts l -> forall s, exists s', exec ret l s Normal s' /\ eqx s' s.
  Proof.
    intros H. induction H as [|st l [x [e [ -> G]]] H IH]; intros s; [exists s; split; [constructor|apply eqx_refl]|].
    destruct (IH (upd s x (eval s e))) as [s' [E1 E2]]. exists s'. split; [econstructor; [constructor|exact E1]|]. eapply eqx_trans; [exact E2|]. now apply eqx_ghost.
  Qed.
  Lemma strip_shape st : (exists x e, st = SAssign x e /\ ghost x = true /\ strip st = []) \/ exists x', strip st = [x'].
  Proof. destruct st; cbn; eauto. destruct (ghost x) eqn:G; eauto 6. Qed.
  Lemma strips_nil l : strips l = [] -> ghosts l.
  Proof.
    induction l as [|st l IH]; intros H; [constructor|]. cbn in H. destruct (strip_shape st) as [[x [e [ -> [G E]]]]|[x' E]]; rewrite E in H; cbn in H; [|discriminate].
    constructor; [eauto|now apply IH].
  Qed.
  Lemma strips_cons l x' r' : strips l = x' :: r' -> exists g x r, l = g ++ x :: r /\ ghosts g /\ strip x = [x'] /\ strips r = r'.
  Proof.
    induction l as [|st l IH]; intros H; [discriminate|]. cbn in H. destruct (strip_shape st) as [[x [e [E0 [G E]]]]|[y E]]; rewrite E in H; cbn in H.
    - destruct (IH H) as [g [x0 [r [ -> [G2 [E2 E3]]]]]]. exists (st :: g), x0, r. split; [reflexivity|]. split; [constructor; [eauto|exact G2]|auto].
    - injection H as <- H. exists [], st, l. split; [reflexivity|]. split; [constructor|auto].
  Qed.

  Lemma exec_strip ret :
    (forall x' t o t', exec1 ret x' t o t' -> forall x, strip x = [x'] -> private x = true -> forall s, eqx s t -> exists s', exec1 ret x s o s' /\ eqx s' t') /\
    (forall l' t o t', exec ret l' t o t' -> forall l, strips l = l' -> forallb private l = true -> forall s, eqx s t -> exists s', exec ret l s o s' /\ eqx s' t').
  Proof.
    assert (EU : forall e s t, eqx s t -> unread e = true -> eval t e = eval s e) by (intros e s t H U; symmetry; now apply eqx_eval).
    apply exec_mutind.
    - intros x e t st E P s H. destruct st as [y f|?|?|?|?|?| | |?|?| |?]; cbn in E; try discriminate. destruct (ghost y) eqn:G; [discriminate|]. injection E as -> ->. cbn in P. rewrite G in P. cbn in P.
      eexists. split; [constructor|]. now apply eqx_upd.
    - intros l' t o t' _ IH st E P s H. destruct st as [y f|l|?|?|?|?| | |?|?| |?]; cbn in E; try (destruct (ghost y)); try discriminate. injection E as <-.
      destruct (IH l eq_refl P s H) as [s' [X Y]]. exists s'. split; [now constructor|exact Y].
    - intros e l' t o t' _ IH st E P s H. destruct st as [y f|?|e0 l|?|?|?| | |?|?| |?]; cbn in E; try (destruct (ghost y)); try discriminate. injection E as -> <-. cbn in P. apply andb_true_iff in P as [U P].
      destruct (IH (if truth (eval t e) then l else []) ltac:(now destruct (truth _)) ltac:(now destruct (truth _)) s H) as [s' [X Y]]. exists s'. split; [|exact Y]. constructor. now rewrite <- (EU e s t H U).
    - intros e l1' l2' t o t' _ IH st E P s H. destruct st as [y f|?|?|e0 l1 l2|?|?| | |?|?| |?]; cbn in E; try (destruct (ghost y)); try discriminate. injection E as -> <- <-. cbn in P. apply andb_true_iff in P as [P P2]. apply andb_true_iff in P as [U P].
      destruct (IH (if truth (eval t e) then l1 else l2) ltac:(now destruct (truth _)) ltac:(now destruct (truth _)) s H) as [s' [X Y]]. exists s'. split; [|exact Y]. constructor. now rewrite <- (EU e s t H U).
    - intros e cs' t o t' _ IH st E P s H. destruct st as [y f|?|?|?|e0 cs|?| | |?|?| |?]; cbn in E; try (destruct (ghost y)); try discriminate. injection E as -> <-. cbn in P. apply andb_true_iff in P as [U P].
      destruct (IH (match pick (eval t e) cs with Some l => l | None => [] end) ltac:(rewrite pick_map; now destruct (pick _ cs)) (private_pick _ _ P) s H) as [s' [X Y]].
      exists s'. split; [|exact Y]. constructor. now rewrite <- (EU e s t H U).
    - intros e b' t T st E P s H. destruct st as [y f|?|?|?|?|e0 b| | |?|?| |?]; cbn in E; try (destruct (ghost y)); try discriminate. injection E as -> <-. cbn in P. apply andb_true_iff in P as [U P].
      exists s. split; [|exact H]. constructor. now rewrite <- (EU e s t H U).
    - intros e b' t t1 t2 T _ IH1 _ IH2 st E P s H. pose proof E as E0. pose proof P as P0. destruct st as [y f|?|?|?|?|e0 b| | |?|?| |?]; cbn in E; try (destruct (ghost y)); try discriminate. injection E as -> <-. cbn in P. apply andb_true_iff in P as [U P].
      destruct (IH1 b eq_refl P s H) as [s1 [X1 H1]]. destruct (IH2 _ E0 P0 s1 H1) as [s2 [X2 H2]]. exists s2. split; [|exact H2]. eapply x_while_next; [now rewrite <- (EU e s t H U)|exact X1|exact X2].
    - intros e b' t t1 T _ IH st E P s H. destruct st as [y f|?|?|?|?|e0 b| | |?|?| |?]; cbn in E; try (destruct (ghost y)); try discriminate. injection E as -> <-. cbn in P. apply andb_true_iff in P as [U P].
      destruct (IH b eq_refl P s H) as [s1 [X1 H1]]. exists s1. split; [|exact H1]. apply x_while_break; [now rewrite <- (EU e s t H U)|exact X1].
    - intros t st E P s H. exists s. split; [|exact H]. destruct st; cbn in E; try (destruct (ghost x)); try discriminate. constructor.
    - intros t st E P s H. exists s. split; [|exact H]. destruct st; cbn in E; try (destruct (ghost x)); try discriminate. constructor.
    - intros n t st E P s H. exists s. split; [|exact H]. destruct st; cbn in E; try (destruct (ghost x)); try discriminate. constructor.
    - intros t R st E P s H. exists s. split; [|exact H]. destruct st; cbn in E; try (destruct (ghost x)); try discriminate. now constructor.
    - intros t l E P s H. apply strips_nil in E. destruct (ghosts_exec ret l E s) as [s' [X Y]]. exists s'. split; [exact X|]. eapply eqx_trans; [exact Y|exact H].
    - intros x' r' t t1 o t2 _ IH1 _ IH2 l E P s H. destruct (strips_cons _ _ _ E) as [g [x [r [ -> [G [Ex Er]]]]]]. rewrite forallb_app in P. cbn [forallb] in P. apply andb_true_iff in P as [_ P]. apply andb_true_iff in P as [P1 P2].
      destruct (ghosts_exec ret g G s) as [s0 [X0 H0]]. destruct (IH1 x Ex P1 s0 (eqx_trans _ _ _ H0 H)) as [s1 [X1 H1]]. destruct (IH2 r Er P2 s1 H1) as [s2 [X2 H2]].
      exists s2. split; [|exact H2]. eapply exec_app; [exact X0|]. econstructor; eassumption.
    - intros x' r' t t1 _ IH l E P s H. destruct (strips_cons _ _ _ E) as [g [x [r [ -> [G [Ex Er]]]]]]. rewrite forallb_app in P. cbn [forallb] in P. apply andb_true_iff in P as [_ P]. apply andb_true_iff in P as [P1 P2].
      destruct (ghosts_exec ret g G s) as [s0 [X0 H0]]. destruct (IH x Ex P1 s0 (eqx_trans _ _ _ H0 H)) as [s1 [X1 H1]].
      exists s1. split; [|exact H1]. eapply exec_app; [exact X0|]. now apply x_broke.
  Qed.

  Lemma forallb_strips (f : stmt -> bool) l : (forall st, In st l -> f st = true -> forallb f (strip st) = true) -> forallb f l = true -> forallb f (strips l) = true.
  Proof.
    induction l as [|st l IH]; intros H E; [reflexivity|]. cbn in E. apply andb_true_iff in E as [E1 E2]. unfold strips. cbn [flat_map]. rewrite forallb_app.
    rewrite (H st (or_introl eq_refl) E1). apply IH; [|exact E2]. intros st' Hs. apply H. now right.
  Qed.
  Lemma strip_structured ret st : structured ret st = true -> forallb (structured ret) (strip st) = true.
  Proof.
    assert (L : forall l, Forall (fun st => structured ret st = true -> forallb (structured ret) (strip st) = true) l -> forallb (structured ret) l = true -> forallb (structured ret) (flat_map strip l) = true).
    { intros l F. apply (forallb_strips (structured ret)). rewrite Forall_forall in F. exact F. }
    induction st using stmt_ind'; cbn [structured strip forallb]; intros E; rewrite ?andb_true_r; try assumption.
    - destruct (ghost x); reflexivity.
    - now apply L.
    - now apply L.
    - apply andb_true_iff in E as [E1 E2]. now rewrite !L.
    - rewrite forallb_forall in *. rewrite Forall_forall in H. intros c Hc. apply in_map_iff in Hc. destruct Hc as [d [<- Hd]]. cbn. apply L; [now apply H|now apply E].
    - now apply L.
  Qed.
  Lemma strip_timeless st : timeless st = true -> forallb timeless (strip st) = true.
  Proof.
    assert (L : forall l, Forall (fun st => timeless st = true -> forallb timeless (strip st) = true) l -> forallb timeless l = true -> forallb timeless (flat_map strip l) = true).
    { intros l F. apply (forallb_strips timeless). rewrite Forall_forall in F. exact F. }
    induction st using stmt_ind'; cbn [timeless strip forallb]; intros E; rewrite ?andb_true_r; try assumption.
    - destruct (ghost x); reflexivity.
    - now apply L.
    - now apply L.
    - apply andb_true_iff in E as [E1 E2]. now rewrite !L.
    - rewrite forallb_forall in *. rewrite Forall_forall in H. intros c Hc. apply in_map_iff in Hc. destruct Hc as [d [<- Hd]]. cbn. apply L; [now apply H|now apply E].
  Qed.
  Lemma strip_covered st : covered st = true -> forallb covered (strip st) = true.
  Proof.
    assert (L : forall l, Forall (fun st => covered st = true -> forallb covered (strip st) = true) l -> forallb covered l = true -> forallb covered (flat_map strip l) = true).
    { intros l F. apply (forallb_strips covered). rewrite Forall_forall in F. exact F. }
    induction st using stmt_ind'; cbn [covered strip forallb]; intros E; rewrite ?andb_true_r; try assumption.
    - destruct (ghost x); reflexivity.
    - now apply L.
    - now apply L.
    - apply andb_true_iff in E as [E1 E2]. now rewrite !L.
    - apply andb_true_iff in E as [E1 E2]. apply andb_true_iff. split.
      + apply orb_true_iff in E1. apply orb_true_iff. destruct E1 as [E1|E1]; [left|right].
        * rewrite forallb_forall in *. intros c Hc. apply in_map_iff in Hc. destruct Hc as [d [<- Hd]]. cbn. apply (forallb_strips timeless); [intros; now apply strip_timeless|now apply E1].
        * rewrite <- E1. apply has_default_fst. rewrite map_map. reflexivity.
      + rewrite forallb_forall in *. rewrite Forall_forall in H. intros c Hc. apply in_map_iff in Hc. destruct Hc as [d [<- Hd]]. cbn. apply L; [now apply H|now apply E2].
    - now apply L.
  Qed.
End Strip.
