(** The cycles a program takes, by induction on its text: the rules of Documentation.md, "Execution flow and cycle utilization rules" (lines 1285-1500), as
    they follow from the code. Nothing here refers to blocks, states or Verilog. *)
From Coq Require Import List Bool Arith ZArith Lia.
Import ListNotations.
From Verif Require Import FsmModel FsmEmit FsmLayout FsmStates FsmSource FsmBig FsmRun FsmTimeStatic FsmTimeSem FsmTimeRun.

(** State of the current cycle: nothing was executed in it yet; something was; it is over, the next instruction starts in the next one. *)
Inductive phase := Fresh | Busy | Ended.
Definition endif (c : bool) (f : phase) : phase := if c then Ended else f.
Definition begun (f : phase) : bool := match f with Ended => false | _ => true end.
Definition begins (x : stmt) : bool :=
  match x with SAssign _ _ | SIf _ _ | SIfElse _ _ _ | SSwitch _ _ | SStep | SReturn => true | _ => false end.

Section Cost.
  (** [env t s]: values at the beginning of cycle [t] given those at the end of the previous one. *)
  Variable env : nat -> store -> store.

  (** [takes1 x t f s o t' f' s']: [t] cycles were begun, the current one is in phase [f] with values [s]; after [x], [t'] cycles were begun ... *)
  Inductive takes1 : stmt -> nat -> phase -> store -> outcome -> nat -> phase -> store -> Prop :=
  | k_begin x t s o t' f' s' : begins x = true -> takes1 x (S t) Fresh (env t s) o t' f' s' -> takes1 x t Ended s o t' f' s'
  | k_assign x e t f s : begun f = true -> takes1 (SAssign x e) t f s Normal t Busy (upd s x (eval s e))
  | k_return t f s : begun f = true -> takes1 SReturn t f s Normal t Busy s
  | k_step t f s : begun f = true -> takes1 SStep t f s Normal (S t) Fresh (env t s)
  | k_label n t f s : takes1 (SLabel n) t f s Normal t f s
  | k_block l t f s o t' f' s' : takes l t f s o t' f' s' -> takes1 (SBlock l) t f s o t' f' s'
  | k_if e l t f s o t' f' s' : begun f = true -> takes (if truth (eval s e) then l else []) t Busy s o t' f' s' ->
      takes1 (SIf e l) t f s o t' (endif (cut (SIf e l)) f') s'
  | k_ifelse e l1 l2 t f s o t' f' s' : begun f = true -> takes (if truth (eval s e) then l1 else l2) t Busy s o t' f' s' ->
      takes1 (SIfElse e l1 l2) t f s o t' (endif (cut (SIfElse e l1 l2)) f') s'
  | k_switch e cs t f s o t' f' s' : begun f = true -> takes (match pick (eval s e) cs with Some l => l | None => [] end) t Busy s o t' f' s' ->
      takes1 (SSwitch e cs) t f s o t' (endif (cut (SSwitch e cs)) f') s'
  | k_while e b t f s t' f' s' : loops e b t s t' f' s' -> takes1 (SWhile e b) t f s Normal t' f' s'
  | k_break t f s : takes1 SBreak t f s Broke t Ended s
  | k_join d rb t f s t' f' s' : joins d rb t s t' f' s' -> takes1 (SJoin d rb) t f s Normal t' f' s'
  with takes : list stmt -> nat -> phase -> store -> outcome -> nat -> phase -> store -> Prop :=
  | ks_nil t f s : takes [] t f s Normal t f s
  | ks_cons x r t f s t1 f1 s1 o t' f' s' : takes1 x t f s Normal t1 f1 s1 -> takes r t1 f1 s1 o t' f' s' -> takes (x :: r) t f s o t' f' s'
  | ks_broke x r t f s t1 f1 s1 : takes1 x t f s Broke t1 f1 s1 -> takes (x :: r) t f s Broke t1 f1 s1
  (** Tests of a loop: each in a new cycle. *)
  with loops : expr -> list stmt -> nat -> store -> nat -> phase -> store -> Prop :=
  | kl_exit e b t s : truth (eval (env t s) e) = false -> loops e b t s (S t) (endif (hasbrks b) Busy) (env t s)
  | kl_iter e b t s t1 f1 s1 t' f' s' : truth (eval (env t s) e) = true -> takes b (S t) Busy (env t s) Normal t1 f1 s1 -> loops e b t1 s1 t' f' s' ->
      loops e b t s t' f' s'
  | kl_break e b t s t1 f1 s1 : truth (eval (env t s) e) = true -> takes b (S t) Busy (env t s) Broke t1 f1 s1 -> loops e b t s t1 Ended s1
  (** Tests of a done signal: each in a new cycle, the results are read in the next one. *)
  with joins : expr -> list (var * expr) -> nat -> store -> nat -> phase -> store -> Prop :=
  | kj_done d rb t s t' f' s' : truth (eval (env t s) d) = true -> takes (assigns rb) (S t) Ended (env t s) Normal t' f' s' -> joins d rb t s t' f' s'
  | kj_wait d rb t s t' f' s' : truth (eval (env t s) d) = false -> joins d rb (S t) (env t s) t' f' s' -> joins d rb t s t' f' s'.
  Scheme takes1_mut := Minimality for takes1 Sort Prop with takes_mut := Minimality for takes Sort Prop
    with loops_mut := Minimality for loops Sort Prop with joins_mut := Minimality for joins Sort Prop.
  Combined Scheme takes_mutind from takes1_mut, takes_mut, loops_mut, joins_mut.

  (** * Small steps of these executions *)
  Definition work (c : config) : bool :=
    match c with
    | Run (SAssign _ _ :: _) _ | Run (SReturn :: _) _ | Run (SIf _ _ :: _) _ | Run (SIfElse _ _ _ :: _) _ | Run (SSwitch _ _ :: _) _ | Test _ _ _ _ | Wait _ _ _ _ => true
    | _ => false
    end.
  (** The flag tells if something was executed in the cycle. *)
  Definition point : Type := nat * bool * config * store.
  Inductive steps : point -> point -> Prop :=
  | g_refl a : steps a a
  | g_move t w c s c1 s1 b : move (c, s) (c1, s1) -> steps (t, w || work c, c1, s1) b -> steps (t, w, c, s) b
  | g_tick t w c s c1 b : tick c c1 -> c <> Run [] KStop -> steps (S t, false, c1, env t s) b -> steps (t, w, c, s) b.
  Lemma steps_trans a b c : steps a b -> steps b c -> steps a c.
  Proof. induction 1; intros H2; [exact H2|eapply g_move; eauto|eapply g_tick; eauto]. Qed.
  Lemma steps_one t w c s c1 s1 : move (c, s) (c1, s1) -> steps (t, w, c, s) (t, w || work c, c1, s1).
  Proof. intros H. eapply g_move; [exact H|apply g_refl]. Qed.

  Definition cfg (f : phase) (l : list stmt) (k : kont) : config := match f with Ended => Jump l k | _ => Run l k end.
  Definition busy (f : phase) (w : bool) : Prop := f = Busy -> w = true.

  (** Leaving a conditional. *)
  Lemma leave_seq t w f j r k s : busy f w -> exists w', busy (endif j f) w' /\ steps (t, w, cfg f [] (KSeq j r k), s) (t, w', cfg (endif j f) r k, s).
  Proof.
    intros B. unfold busy in *. destruct f, j; cbn [endif cfg]; eexists; (split; [|apply steps_one; constructor]); intros E; try discriminate; now rewrite (B E).
  Qed.

  Definition ok1 (x : stmt) (t : nat) (f : phase) (s : store) (o : outcome) (t' : nat) (f' : phase) (s' : store) : Prop :=
    forall r k w, busy f w ->
      match o with
      | Normal => exists w', busy f' w' /\ steps (t, w, cfg f (x :: r) k, s) (t', w', cfg f' r k, s')
      | Broke => f' = Ended /\ forall r' k', brkk k = Some (r', k') -> exists w', steps (t, w, cfg f (x :: r) k, s) (t', w', Jump r' k', s')
      end.
  Definition oks (l : list stmt) (t : nat) (f : phase) (s : store) (o : outcome) (t' : nat) (f' : phase) (s' : store) : Prop :=
    forall k w, busy f w ->
      match o with
      | Normal => forall r, exists w', busy f' w' /\ steps (t, w, cfg f (l ++ r) k, s) (t', w', cfg f' r k, s')
      | Broke => f' = Ended /\ forall r r' k', brkk k = Some (r', k') -> exists w', steps (t, w, cfg f (l ++ r) k, s) (t', w', Jump r' k', s')
      end.

  Lemma branch_ok x l j t f s o t' f' s' :
    (forall r k, move (Run (x :: r) k, s) (Run l (KSeq j r k), s)) -> (forall r k, work (Run (x :: r) k) = true) -> begun f = true ->
    oks l t Busy s o t' f' s' -> ok1 x t f s o t' (endif j f') s'.
  Proof.
    intros MV WK B H r k w Bw. assert (C : forall l0 k0, cfg f l0 k0 = Run l0 k0) by (intros; destruct f; [reflexivity|reflexivity|discriminate]). rewrite C.
    assert (S1 : steps (t, w, Run (x :: r) k, s) (t, true, Run l (KSeq j r k), s)).
    { eapply g_move; [apply MV|]. rewrite WK, orb_true_r. apply g_refl. }
    specialize (H (KSeq j r k) true (fun _ => eq_refl)). destruct o.
    - destruct (H []) as [w1 [B1 S2]]. rewrite app_nil_r in S2. destruct (leave_seq t' w1 f' j r k s' B1) as [w2 [B2 S3]].
      exists w2. split; [exact B2|]. eapply steps_trans; [exact S1|]. eapply steps_trans; [exact S2|exact S3].
    - destruct H as [-> H]. split; [now destruct j|]. intros r' k' E. destruct (H [] r' k' E) as [w1 S2]. rewrite app_nil_r in S2. exists w1. eapply steps_trans; [exact S1|exact S2].
  Qed.

  Lemma to_jump f l k t w s : (forall s, move (Run l k, s) (Jump l k, s)) -> work (Run l k) = false -> steps (t, w, cfg f l k, s) (t, w, Jump l k, s).
  Proof. intros H E. destruct f; cbn [cfg]; try apply g_refl; (eapply g_move; [apply H|]; rewrite E, orb_false_r; apply g_refl). Qed.

  Definition okl (e : expr) (b : list stmt) (t : nat) (s : store) (t' : nat) (f' : phase) (s' : store) : Prop :=
    forall r k w, exists w', busy f' w' /\ steps (t, w, Jump (SWhile e b :: r) k, s) (t', w', cfg f' r k, s').
  Definition okj (d : expr) (rb : list (var * expr)) (t : nat) (s : store) (t' : nat) (f' : phase) (s' : store) : Prop :=
    forall r k w, exists w', busy f' w' /\ steps (t, w, Jump (SJoin d rb :: r) k, s) (t', w', cfg f' r k, s').

  Lemma takes_ok : (forall x t f s o t' f' s', takes1 x t f s o t' f' s' -> ok1 x t f s o t' f' s') /\
    (forall l t f s o t' f' s', takes l t f s o t' f' s' -> oks l t f s o t' f' s') /\
    (forall e b t s t' f' s', loops e b t s t' f' s' -> okl e b t s t' f' s') /\
    (forall d rb t s t' f' s', joins d rb t s t' f' s' -> okj d rb t s t' f' s').
  Proof.
    apply takes_mutind.
    - (* begin *)
      intros x t s o t' f' s' B _ H r k w _. specialize (H r k false). assert (X : busy Fresh false) by discriminate. specialize (H X).
      assert (ST : forall b, steps (S t, false, Run (x :: r) k, env t s) b -> steps (t, w, Jump (x :: r) k, s) b).
      { intros b. eapply g_tick; [|discriminate]. constructor. destruct x; try discriminate B; reflexivity. }
      cbn [cfg] in *. destruct o.
      + destruct H as [w' [H1 H2]]. exists w'. split; [exact H1|]. now apply ST.
      + destruct H as [H1 H2]. split; [exact H1|]. intros r' k' E. destruct (H2 r' k' E) as [w' H3]. exists w'. now apply ST.
    - intros x e t f s B r k w _. assert (C : forall l0 k0, cfg f l0 k0 = Run l0 k0) by (intros; destruct f; [reflexivity|reflexivity|discriminate]). rewrite C.
      eexists. split; [|apply steps_one; constructor]. intros _. apply orb_true_r.
    - intros t f s B r k w _. assert (C : forall l0 k0, cfg f l0 k0 = Run l0 k0) by (intros; destruct f; [reflexivity|reflexivity|discriminate]). rewrite C.
      eexists. split; [|apply steps_one; constructor]. intros _. apply orb_true_r.
    - intros t f s B r k w _. assert (C : forall l0 k0, cfg f l0 k0 = Run l0 k0) by (intros; destruct f; [reflexivity|reflexivity|discriminate]). rewrite C.
      exists false. split; [discriminate|]. eapply g_tick; [apply t_step|discriminate|apply g_refl].
    - intros n t f s r k w B. exists w. split; [exact B|]. destruct f; cbn [cfg]; (eapply g_move; [constructor|]; cbn [work]; rewrite orb_false_r; apply g_refl).
    - intros l t f s o t' f' s' _ H r k w B.
      assert (S1 : steps (t, w, cfg f (SBlock l :: r) k, s) (t, w, cfg f l (KSeq false r k), s)).
      { destruct f; cbn [cfg]; (eapply g_move; [constructor|]; cbn [work]; rewrite orb_false_r; apply g_refl). }
      specialize (H (KSeq false r k) w B). destruct o.
      + destruct (H []) as [w1 [B1 S2]]. rewrite app_nil_r in S2. destruct (leave_seq t' w1 f' false r k s' B1) as [w2 [B2 S3]].
        exists w2. split; [exact B2|]. eapply steps_trans; [exact S1|]. eapply steps_trans; [exact S2|exact S3].
      + destruct H as [-> H]. split; [reflexivity|]. intros r' k' E. destruct (H [] r' k' E) as [w1 S2]. rewrite app_nil_r in S2. exists w1. eapply steps_trans; [exact S1|exact S2].
    - intros e l t f s o t' f' s' B _ H. eapply branch_ok; [intros; apply m_if|reflexivity|exact B|exact H].
    - intros e l1 l2 t f s o t' f' s' B _ H. eapply branch_ok; [intros; apply m_ifelse|reflexivity|exact B|exact H].
    - intros e cs t f s o t' f' s' B _ H. eapply branch_ok; [intros; apply m_switch|reflexivity|exact B|exact H].
    - intros e b t f s t' f' s' _ H r k w B. destruct (H r k w) as [w' [B1 S1]]. exists w'. split; [exact B1|]. eapply steps_trans; [|exact S1]. apply to_jump; [intros; constructor|reflexivity].
    - intros t f s r k w B. split; [reflexivity|]. intros r' k' E. exists w. destruct f; cbn [cfg]; (eapply g_move; [constructor; exact E|]; cbn [work]; rewrite orb_false_r; apply g_refl).
    - intros d rb t f s t' f' s' _ H r k w B. destruct (H r k w) as [w' [B1 S1]]. exists w'. split; [exact B1|]. eapply steps_trans; [|exact S1]. apply to_jump; [intros; constructor|reflexivity].
    - (* lists *)
      intros t f s k w B r. exists w. split; [exact B|apply g_refl].
    - intros x r t f s t1 f1 s1 o t' f' s' _ H1 _ H2 k w B.
      destruct o.
      + intros r0. destruct (H1 (r ++ r0) k w B) as [w1 [B1 S1]]. destruct (H2 k w1 B1 r0) as [w2 [B2 S2]]. exists w2. split; [exact B2|]. eapply steps_trans; [exact S1|exact S2].
      + split; [destruct (H1 r k w B) as [w1 [B1 _]]; now destruct (H2 k w1 B1)|]. intros r0 r' k' E. destruct (H1 (r ++ r0) k w B) as [w1 [B1 S1]]. destruct (H2 k w1 B1) as [_ X].
        destruct (X r0 r' k' E) as [w2 S2]. exists w2. eapply steps_trans; [exact S1|exact S2].
    - intros x r t f s t1 f1 s1 _ H k w B. split; [now destruct (H r k w B)|]. intros r0 r' k' E. destruct (H (r ++ r0) k w B) as [_ X]. exact (X r' k' E).
    - (* loops *)
      intros e b t s E r k w. destruct (hasbrks b) eqn:HB; cbn [endif cfg].
      + exists true. split; [discriminate|]. eapply g_tick; [apply t_while|discriminate|]. eapply g_move; [apply m_test|]. rewrite E, HB. cbn [work orb]. apply g_refl.
      + exists true. split; [intros _; reflexivity|]. eapply g_tick; [apply t_while|discriminate|]. eapply g_move; [apply m_test|]. rewrite E, HB. cbn [work orb]. apply g_refl.
    - intros e b t s t1 f1 s1 t' f' s' E _ H1 _ H2 r k w.
      destruct (H1 (KLoop e b r k) true (fun _ => eq_refl) []) as [w1 [B1 S1]]. rewrite app_nil_r in S1.
      destruct (H2 r k (w1)) as [w2 [B2 S2]]. exists w2. split; [exact B2|]. eapply g_tick; [apply t_while|discriminate|]. eapply g_move; [apply m_test|]. rewrite E. cbn [work orb].
      eapply steps_trans; [exact S1|]. destruct f1; cbn [cfg]; (eapply g_move; [constructor|]; cbn [work]; rewrite orb_false_r; exact S2).
    - intros e b t s t1 f1 s1 E _ H r k w. destruct (H (KLoop e b r k) true (fun _ => eq_refl)) as [-> X]. destruct (X [] r k eq_refl) as [w1 S1]. rewrite app_nil_r in S1.
      exists w1. split; [discriminate|]. eapply g_tick; [apply t_while|discriminate|]. eapply g_move; [apply m_test|]. rewrite E. cbn [work orb]. exact S1.
    - (* joins *)
      intros d rb t s t' f' s' E _ H r k w. assert (X : busy Ended true) by discriminate. destruct (H k true X r) as [w1 [B1 S1]]. exists w1. split; [exact B1|].
      eapply g_tick; [apply t_wait|discriminate|]. eapply g_move; [apply m_wait|]. rewrite E. cbn [work orb]. exact S1.
    - intros d rb t s t' f' s' E _ H r k w. destruct (H r k true) as [w1 [B1 S1]]. exists w1. split; [exact B1|].
      eapply g_tick; [apply t_wait|discriminate|]. eapply g_move; [apply m_wait|]. rewrite E. cbn [work orb]. exact S1.
  Qed.

  (** * Cycles *)
  Lemma nothing_move l k s c s1 : nothing l k -> move (Run l k, s) (c, s1) -> exists l' k', c = Run l' k' /\ nothing l' k'.
  Proof. intros N H. destruct N; inversion H; subst. eauto. Qed.
  Lemma nothing_work l k : nothing l k -> work (Run l k) = false.
  Proof. now destruct 1. Qed.
  Definition idle (c : config) : Prop := exists l k, c = Run l k /\ nothing l k.
  Lemma idle_moves a b : moves a b -> idle (fst a) -> idle (fst b).
  Proof.
    induction 1 as [a|a a1 b M1 H IH]; intros I; [exact I|]. apply IH. destruct a as [ca sa], a1 as [c1 s1]. destruct I as [l [k [E N]]]. cbn in E. subst ca.
    destruct (nothing_move _ _ _ _ _ N M1) as [l' [k' [E N']]]. exists l', k'. auto.
  Qed.
  (** In the middle of cycle [t] of an execution from [a]. *)
  Record mid (a : config * store) (t : nat) (w : bool) (c : config) (s : store) : Prop := {
    d_cyc : exists t0 c0 s0 c1, t = S t0 /\ after env t0 a (c0, s0) /\ tick c0 c1 /\ moves (c1, env t0 s0) (c, s) /\ (w = true -> ~ idle c1);
    d_run : forall n, n < t -> exists c0 s0, after env n a (c0, s0) /\ c0 <> Run [] KStop
  }.
  Lemma mid_steps a p q : steps p q -> match p, q with (t, w, c, s), (t', w', c', s') => mid a t w c s -> mid a t' w' c' s' end.
  Proof.
    induction 1 as [[[[t w] c] s]|t w c s c1 s1 [[[t' w'] c'] s'] M1 H IH|t w c s c1 [[[t' w'] c'] s'] T N H IH]; [auto| |].
    - intros [C R]. apply IH. constructor; [|exact R]. destruct C as [t0 [c0 [s0 [c2 [-> [A [T [MV W]]]]]]]]. exists t0, c0, s0, c2.
      split; [reflexivity|]. split; [exact A|]. split; [exact T|]. split; [eapply moves_trans; [exact MV|apply moves_one; exact M1]|].
      intros E I. destruct w; [exact (W eq_refl I)|]. cbn [orb] in E. pose proof (idle_moves _ _ MV I) as [l [k [El Nl]]]. cbn in El. subst c. rewrite (nothing_work _ _ Nl) in E. discriminate.
    - intros [C R]. apply IH. destruct C as [t0 [c0 [s0 [c2 [-> [A [T0 [MV W]]]]]]]].
      assert (AF : after env (S t0) a (c, s)) by (eapply af_S; [exact A|exact T0|exact MV|exists c1; exact T]).
      constructor.
      + exists (S t0), c, s, c1. split; [reflexivity|]. split; [exact AF|]. split; [exact T|]. split; [apply mv_refl|discriminate].
      + intros n L. destruct (Nat.eq_dec n (S t0)) as [ ->|]; [exists c, s; auto|apply R; lia].
  Qed.

  (** [takes] as an execution from the start. *)
  Lemma takes_after p s0 t f s : takes p 1 Fresh (env 0 s0) Normal t f s ->
    exists w, busy f w /\ mid (Run (SStep :: p) KStop, s0) t w (cfg f [] KStop) s.
  Proof.
    intros H. destruct takes_ok as [_ [X _]]. assert (B : busy Fresh false) by discriminate. destruct (X _ _ _ _ _ _ _ _ H KStop false B []) as [w [B1 S1]]. rewrite app_nil_r in S1.
    exists w. split; [exact B1|]. apply (mid_steps (Run (SStep :: p) KStop, s0) _ _ S1). constructor.
    - exists 0, (Run (SStep :: p) KStop), s0, (Run p KStop). split; [reflexivity|]. split; [constructor|]. split; [apply t_step|]. split; [apply mv_refl|discriminate].
    - intros n L. assert (n = 0) by lia. subst n. exists (Run (SStep :: p) KStop), s0. split; [constructor|discriminate].
  Qed.
  Lemma mid_after a t w c s : mid a t w c s -> (exists c2, tick c c2) -> after env t a (c, s).
  Proof. intros [[t0 [c0 [s0 [c1 [-> [A [T [MV _]]]]]]]] _] TK. eapply af_S; eassumption. Qed.
  Lemma after_stop a n s m : after env n a (Run [] KStop, s) -> n <= m -> exists s', after env m a (Run [] KStop, s').
  Proof.
    intros A L. induction L as [|m L [s' IH]]; [eauto|]. exists (env m s'). eapply af_S; [exact IH|apply t_stop|apply mv_refl|exists (Run [] KStop); apply t_stop].
  Qed.
End Cost.

(** * Machines *)
Lemma takes_body env unit p t f s o t' f' s' : takes env p t f s o t' f' s' -> o = Normal -> takes env (body unit p) t f s o t' f' s'.
Proof. intros H ->. unfold body. destruct unit; [|exact H]. eapply ks_cons; [apply k_block; exact H|apply ks_nil]. Qed.

Section Machine.
  Variables (fuel : nat) (unit : bool) (deps0 : list var) (p : list stmt) (m : fsm).
  Variables inp pre : nat -> store -> store.
  Hypothesis CP : compile fuel unit deps0 p = Some m.
  Hypothesis LG : Legal deps0 pre p.
  Hypothesis NG : gotoss p = [].
  Notation envp := (env inp pre).

  (** Cycles the program is said to take. *)
  Definition total (t : nat) (f : phase) : nat := match f with Ended => S t | _ => t end.

  Theorem machine_cycles s0 t f s : takes envp p 1 Fresh (envp 0 s0) Normal t f s ->
    (forall n, S n < total t f -> exists D i, runs m inp pre n s0 = Some (D, i) /\ i <> 0) /\
    (forall n, total t f <= n -> exists D, runs m inp pre n s0 = Some (D, 0)) /\
    (exists i, runs m inp pre t s0 = Some (s, i)) /\
    (f = Busy -> forall n, n < t -> exists D i, runs m inp pre n s0 = Some (D, i) /\ i <> 0).
  Proof.
    intros TK. pose proof (takes_body _ unit _ _ _ _ _ _ _ _ TK eq_refl) as TB. destruct (takes_after _ _ _ _ _ _ TB) as [w [Bw MD]].
    set (a := (Run (SStep :: body unit p) KStop, s0)) in *.
    assert (LK : forall n, exists D i cf, runs m inp pre n s0 = Some (D, i) /\ after envp n a (cf, D) /\ (exists c2, tick cf c2) /\ (i = 0 -> done cf) /\ (i <> 0 -> cf <> Run [] KStop)).
    { intros n. exact (lockstep fuel unit deps0 p m inp pre CP LG NG n s0). }
    assert (TC : exists c2, tick (cfg f [] KStop) c2) by (destruct f; cbn [cfg]; eexists; [apply t_stop|apply t_stop|now apply t_jump]).
    pose proof (mid_after _ _ _ _ _ _ MD TC) as AT.
    (* stops at index 0 are near the end *)
    assert (EARLY : forall n D, runs m inp pre n s0 = Some (D, 0) -> n < t -> S n = t /\ f <> Ended).
    { intros n D R L. destruct (LK n) as [D' [i [cf [R' [A [_ [DN _]]]]]]]. rewrite R in R'. injection R' as <- <-. specialize (DN eq_refl).
      destruct (d_run _ _ _ _ _ _ MD n L) as [c0 [s1 [A0 N0]]]. pose proof (after_det _ _ _ _ _ A A0) as E. injection E as <- <-.
      destruct DN as [ ->|[l [k [T NO]]]]; [congruence|].
      assert (A1 : after envp (S n) a (Run [] KStop, envp n D)).
      { eapply af_S; [exact A|exact T|now apply nothing_moves|exists (Run [] KStop); apply t_stop]. }
      assert (E1 : S n = t).
      { destruct (Nat.eq_dec (S n) t) as [|NE]; [assumption|]. exfalso. destruct (d_run _ _ _ _ _ _ MD (S n) ltac:(lia)) as [c1 [s2 [A2 N2]]].
        pose proof (after_det _ _ _ _ _ A1 A2) as E. injection E as <- <-. now apply N2. }
      split; [exact E1|]. intros ->. subst t. pose proof (after_det _ _ _ _ _ A1 AT) as E. discriminate. }
    split; [|split; [|split]].
    - intros n L. destruct (LK n) as [D [i [cf [R _]]]]. exists D, i. split; [exact R|]. intros ->.
      destruct (Nat.lt_ge_cases n t) as [Ln|Ln].
      + destruct (EARLY n D R Ln) as [E NF]. destruct f; cbn [total] in L; try lia. now apply NF.
      + destruct f; cbn [total] in L; lia.
    - intros n L.
      assert (ST : exists s', after envp n a (Run [] KStop, s')).
      { destruct f; cbn [total cfg] in *; [eapply after_stop; [exact AT|exact L]|eapply after_stop; [exact AT|exact L]|].
        eapply after_stop; [|exact L]. eapply af_S; [exact AT|now apply t_jump|apply mv_refl|exists (Run [] KStop); apply t_stop]. }
      destruct ST as [s' A]. destruct (LK n) as [D [i [cf [R [A1 [_ [_ NZ]]]]]]]. pose proof (after_det _ _ _ _ _ A A1) as E. injection E as <- <-.
      exists s'. rewrite R. destruct (Nat.eq_dec i 0) as [ ->|NE]; [reflexivity|]. now destruct (NZ NE).
    - destruct (LK t) as [D [i [cf [R [A1 _]]]]]. pose proof (after_det _ _ _ _ _ AT A1) as E. injection E as <- <-. eauto.
    - intros -> n L. destruct (LK n) as [D [i [cf [R [A [_ [DN _]]]]]]]. exists D, i. split; [exact R|]. intros ->. destruct (EARLY n D R L) as [E _]. subst t.
      specialize (DN eq_refl). destruct (d_cyc _ _ _ _ _ _ MD) as [t0 [c0 [s1 [c1 [E [A0 [T [MV W]]]]]]]]. injection E as <-.
      pose proof (after_det _ _ _ _ _ A A0) as E. injection E as <- <-. apply (W (Bw eq_refl)).
      destruct DN as [ ->|[l [k [T2 NO]]]].
      + inversion T; subst. exists [], KStop. split; [reflexivity|constructor].
      + rewrite (tick_det _ _ _ T T2). exists l, k. auto.
  Qed.
End Machine.
