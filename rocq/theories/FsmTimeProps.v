(** C49: the cycles taken by the instructions of an algorithm. *)
From Coq Require Import List Bool Arith ZArith Lia.
Import ListNotations.
From Verif Require Import FsmModel FsmEmit FsmLayout FsmRegion FsmStates FsmSource FsmRun FsmBig FsmProps FsmTimeStatic FsmTimeSem FsmTimeRun FsmTimeCost.

(** * Each cycle *)
(** Programs without goto: after [n] cycles the machine has the values of the source text after [n] cycles, where the end of each cycle is given by the
    text alone ([after], FsmTimeSem.v) and is unique. It has stopped only when nothing is left, but maybe an empty cycle. *)
Theorem C49_lockstep_partial : forall fuel unit deps0 p m inp pre,
  compile fuel unit deps0 p = Some m -> Legal deps0 pre p -> gotoss p = [] ->
  forall n s0, exists D i c,
    runs m inp pre n s0 = Some (D, i) /\ after (env inp pre) n (Run (SStep :: body unit p) KStop, s0) (c, D) /\
    (forall c' D', after (env inp pre) n (Run (SStep :: body unit p) KStop, s0) (c', D') -> c' = c /\ D' = D) /\
    (i = 0 -> done c) /\ (i <> 0 -> c <> Run [] KStop).
Proof.
  intros fuel unit deps0 p m inp pre CP LG NG n s0. destruct (lockstep fuel unit deps0 p m inp pre CP LG NG n s0) as [D [i [c [R [A [_ H]]]]]].
  exists D, i, c. split; [exact R|]. split; [exact A|]. split; [|exact H]. intros c' D' A'. pose proof (after_det _ _ _ _ _ A A') as E. injection E as <- <-. auto.
Qed.

(** * Number of cycles *)
(** The rules [takes] (FsmTimeCost.v) give the number of cycles and the values at the end. The count is exact when something is executed in the last cycle
    ([Busy]), otherwise the machine may save the last, empty, cycle. *)
Theorem C49_cycles_partial : forall fuel unit deps0 p m inp pre s0 t f s,
  compile fuel unit deps0 p = Some m -> Legal deps0 pre p -> gotoss p = [] ->
  takes (env inp pre) p 1 Fresh (env inp pre 0 s0) Normal t f s ->
  (forall n, S n < total t f -> exists D i, runs m inp pre n s0 = Some (D, i) /\ i <> 0) /\
  (forall n, total t f <= n -> exists D, runs m inp pre n s0 = Some (D, 0)) /\
  (exists i, runs m inp pre t s0 = Some (s, i)) /\
  (f = Busy -> forall n, n < t -> exists D i, runs m inp pre n s0 = Some (D, i) /\ i <> 0).
Proof. intros fuel unit deps0 p m inp pre s0 t f s CP LG NG TK. eapply machine_cycles; eassumption. Qed.

(** Every terminating program has a number of cycles. *)
Lemma exec_takes ret : (forall x s o s', exec1 ret x s o s' -> forall t f, exists t' f', takes1 closed x t f s o t' f' s') /\
  (forall l s o s', exec ret l s o s' -> forall t f, exists t' f', takes closed l t f s o t' f' s').
Proof.
  assert (BG : forall x s o s', begins x = true -> (forall t f, begun f = true -> exists t' f', takes1 closed x t f s o t' f' s') -> forall t f, exists t' f', takes1 closed x t f s o t' f' s').
  { intros x s o s' B H t f. destruct (begun f) eqn:E; [now apply H|]. destruct f; try discriminate. destruct (H (S t) Fresh eq_refl) as [t' [f' T]].
    exists t', f'. apply k_begin; [exact B|exact T]. }
  assert (LP : forall e b s t f t' f' s', takes1 closed (SWhile e b) t f s Normal t' f' s' -> loops closed e b t s t' f' s').
  { intros e b s t f t' f' s' H. inversion H; subst; [discriminate|assumption]. }
  apply exec_mutind.
  - intros x e s. apply BG; [reflexivity|]. intros t f B. exists t, Busy. now constructor.
  - intros l s o s' _ H t f. destruct (H t f) as [t' [f' T]]. exists t', f'. now constructor.
  - intros e l s o s' _ H. apply BG; [reflexivity|]. intros t f B. destruct (H t Busy) as [t' [f' T]]. eexists _, _. apply k_if; eassumption.
  - intros e l1 l2 s o s' _ H. apply BG; [reflexivity|]. intros t f B. destruct (H t Busy) as [t' [f' T]]. eexists _, _. apply k_ifelse; eassumption.
  - intros e cs s o s' _ H. apply BG; [reflexivity|]. intros t f B. destruct (H t Busy) as [t' [f' T]]. eexists _, _. apply k_switch; eassumption.
  - intros e b s E t f. eexists _, _. apply k_while. apply (kl_exit closed e b t s E).
  - intros e b s s1 s2 E _ H1 _ H2 t f. destruct (H1 (S t) Busy) as [t1 [f1 T1]]. destruct (H2 t1 f1) as [t2 [f2 T2]]. exists t2, f2. apply k_while.
    eapply kl_iter; [exact E|exact T1|]. eapply LP. exact T2.
  - intros e b s s1 E _ H t f. destruct (H (S t) Busy) as [t1 [f1 T1]]. eexists _, _. apply k_while. eapply kl_break; [exact E|exact T1].
  - intros s t f. eexists _, _. apply k_break.
  - intros s. apply BG; [reflexivity|]. intros t f B. eexists _, _. apply (k_step closed t f s B).
  - intros n s t f. eexists _, _. apply k_label.
  - intros s _. apply BG; [reflexivity|]. intros t f B. eexists _, _. now apply k_return.
  - intros s t f. eexists _, _. apply ks_nil.
  - intros x r s s1 o s2 _ H1 _ H2 t f. destruct (H1 t f) as [t1 [f1 T1]]. destruct (H2 t1 f1) as [t2 [f2 T2]]. exists t2, f2. eapply ks_cons; eassumption.
  - intros x r s s1 _ H t f. destruct (H t f) as [t1 [f1 T1]]. exists t1, f1. now apply ks_broke.
Qed.
Theorem C49_terminating_partial : forall fuel unit deps0 p m s s',
  compile fuel unit deps0 p = Some m -> structureds false p = true -> covereds p = true -> exec false p s Normal s' ->
  exists t f, takes closed p 1 Fresh s Normal t f s' /\
    (forall n, total t f <= n -> runs m closed closed n s = Some (s', 0)) /\ (forall n D, S n < total t f -> runs m closed closed n s <> Some (D, 0)).
Proof.
  intros fuel unit deps0 p m s s' CP ST CV X. destruct (exec_takes false) as [_ ET]. destruct (ET _ _ _ _ X 1 Fresh) as [t [f T]]. exists t, f. split; [exact T|].
  destruct (C01_structured_partial fuel unit deps0 p m s s' CP ST CV) as [_ FIN]. destruct (FIN X) as [n0 N0].
  assert (NG : gotoss p = [] /\ waitss p = []).
  { clear - ST. unfold structureds, gotoss, waitss in *. induction p as [|x l IH]; cbn in *; [auto|]. apply andb_true_iff in ST. destruct ST as [S1 S2].
    destruct (structured_gotos _ _ S1) as [ -> ->]. destruct (IH S2) as [ -> ->]. auto. }
  assert (LG : Legal deps0 closed p).
  { constructor; auto; [|intros d x H; rewrite (proj2 NG) in H; destruct H]. rewrite (proj1 NG). apply nojumps_nil. }
  destruct (machine_cycles fuel unit deps0 p m closed closed CP LG (proj1 NG) s t f s' T) as [M1 [M2 _]]. split.
  - intros n L. destruct (M2 n L) as [D H]. rewrite H. pose proof (stopped _ _ _ _ _ H (Nat.le_max_l n n0)) as H1. rewrite (N0 _ (Nat.le_max_r n n0)) in H1. congruence.
  - intros n D L H. destruct (M1 n L) as [D' [i [H1 Ni]]]. congruence.
Qed.

(** * A chain without cycles *)
(** Instructions without loop, step, break, goto and wait, under conditions or not, take no cycle of their own. *)
Lemma timeless_takes env ret : (forall x s o s', exec1 ret x s o s' -> timeless x = true -> forall t f, begun f = true ->
     o = Normal /\ exists f', begun f' = true /\ (f = Busy -> f' = Busy) /\ takes1 env x t f s Normal t f' s') /\
  (forall l s o s', exec ret l s o s' -> timelesss l = true -> forall t f, begun f = true ->
     o = Normal /\ exists f', begun f' = true /\ (f = Busy -> f' = Busy) /\ takes env l t f s Normal t f' s').
Proof.
  apply exec_mutind; try discriminate.
  - intros x e s _ t f B. split; [reflexivity|]. exists Busy. repeat split; auto. now constructor.
  - intros l s o s' _ H T t f B. destruct (H T t f B) as [-> [f' [B1 [B2 K]]]]. split; [reflexivity|]. exists f'. repeat split; auto. now constructor.
  - intros e l s o s' _ H T t f B. destruct (H ltac:(destruct (truth (eval s e)); [exact T|reflexivity]) t Busy eq_refl) as [-> [f' [B1 [B2 K]]]]. split; [reflexivity|].
    rewrite (B2 eq_refl) in K. exists Busy. repeat split; auto. assert (C : cut (SIf e l) = false) by (cbn [cut timeless] in *; unfold timelesss; now rewrite T).
    pose proof (k_if env e l t f s Normal t Busy s' B K) as KK. now rewrite C in KK.
  - intros e l1 l2 s o s' _ H T t f B. cbn [timeless] in T. apply andb_true_iff in T. destruct T as [T1 T2]. destruct (H ltac:(destruct (truth (eval s e)); assumption) t Busy eq_refl) as [-> [f' [B1 [B2 K]]]].
    split; [reflexivity|]. rewrite (B2 eq_refl) in K. exists Busy. repeat split; auto.
    assert (C : cut (SIfElse e l1 l2) = false).
    { cbn [cut]. rewrite (timelesss_reachess l1 T1), (timelesss_reachess l2 T2). unfold timelesss. now rewrite T1, T2. }
    pose proof (k_ifelse env e l1 l2 t f s Normal t Busy s' B K) as KK. now rewrite C in KK.
  - intros e cs s o s' _ H T t f B.
    assert (TL : timelesss (match pick (eval s e) cs with Some l => l | None => [] end) = true).
    { destruct (pick (eval s e) cs) as [l|] eqn:P; [|reflexivity]. apply pick_in in P. apply in_map_iff in P. destruct P as [c [E P]]. cbn [timeless] in T. rewrite forallb_forall in T.
      specialize (T _ P). now rewrite E in T. }
    destruct (H TL t Busy eq_refl) as [-> [f' [B1 [B2 K]]]]. split; [reflexivity|]. rewrite (B2 eq_refl) in K. exists Busy. repeat split; auto.
    assert (C : cut (SSwitch e cs) = false) by (unfold cut; now rewrite T). pose proof (k_switch env e cs t f s Normal t Busy s' B K) as KK. now rewrite C in KK.
  - intros n s _ t f B. split; [reflexivity|]. exists f. repeat split; auto. constructor.
  - intros s _ _ t f B. split; [reflexivity|]. exists Busy. repeat split; auto. now constructor.
  - intros s _ t f B. split; [reflexivity|]. exists f. repeat split; auto. constructor.
  - intros x r s s1 o s2 _ H1 _ H2 T t f B. unfold timelesss in T. cbn in T. apply andb_true_iff in T. destruct T as [T1 T2].
    destruct (H1 T1 t f B) as [_ [f1 [B1 [C1 K1]]]]. destruct (H2 T2 t f1 B1) as [-> [f2 [B2 [C2 K2]]]]. split; [reflexivity|]. exists f2. repeat split; auto. eapply ks_cons; eassumption.
  - intros x r s s1 _ H T t f B. unfold timelesss in T. cbn in T. apply andb_true_iff in T. destruct T as [T1 T2]. destruct (H T1 t f B) as [X _]. discriminate.
Qed.
Lemma timelesss_free l : timelesss l = true -> gotoss l = [] /\ waitss l = [] /\ hasbrks l = false.
Proof.
  assert (H1 : forall x, timeless x = true -> gotos x = [] /\ waits x = [] /\ hasbrk x = false).
  { assert (L : forall l, Forall (fun x => timeless x = true -> gotos x = [] /\ waits x = [] /\ hasbrk x = false) l -> forallb timeless l = true ->
       flat_map gotos l = [] /\ flat_map waits l = [] /\ existsb hasbrk l = false).
    { intros l0 F. induction F as [|x l0 H F IH]; cbn; [auto|]. intros E. apply andb_true_iff in E. destruct E as [E1 E2]. destruct (H E1) as [ -> [ -> ->]]. destruct (IH E2) as [ -> [ -> ->]]. auto. }
    intros x. induction x using stmt_ind'; cbn [timeless gotos waits hasbrk]; intros E; try discriminate; auto.
    - apply andb_true_iff in E. destruct E as [E1 E2]. destruct (L _ H E1) as [ -> [ -> ->]]. destruct (L _ H0 E2) as [ -> [ -> ->]]. auto.
    - induction H as [|c cs H F IH]; cbn in *; [auto|]. apply andb_true_iff in E. destruct E as [E1 E2]. destruct (L _ H E1) as [ -> [ -> ->]]. destruct (IH E2) as [ -> [ -> ->]]. auto. }
  unfold timelesss, gotoss, waitss, hasbrks. induction l as [|x l IH]; cbn; [auto|]. intros E. apply andb_true_iff in E. destruct E as [E1 E2].
  destruct (H1 x E1) as [ -> [ -> ->]]. destruct (IH E2) as [ -> [ -> ->]]. auto.
Qed.
(** The whole algorithm is executed in its first cycle. *)
Theorem C49_chain_partial : forall fuel unit deps0 p m inp pre s0 s,
  compile fuel unit deps0 p = Some m -> Legal deps0 pre p -> timelesss p = true -> exec true p (env inp pre 0 s0) Normal s ->
  runs m inp pre 1 s0 = Some (s, 0).
Proof.
  intros fuel unit deps0 p m inp pre s0 s CP LG TL X. destruct (timelesss_free p TL) as [NG _]. destruct (timeless_takes (env inp pre) true) as [_ TT].
  destruct (TT _ _ _ _ X TL 1 Fresh eq_refl) as [_ [f [B [_ K]]]]. destruct (machine_cycles fuel unit deps0 p m inp pre CP LG NG s0 1 f s K) as [_ [M2 [[i M3] _]]].
  destruct (M2 1) as [D H]; [destruct f; [cbn; lia|cbn; lia|discriminate]|]. rewrite M3 in H. congruence.
Qed.

(** * Loops *)
(** [turns env e b t s n s']: the condition is first tested in cycle [t], holds [n] times, the values are [s'] when it does not hold. *)
Inductive turns (env : nat -> store -> store) (e : expr) (b : list stmt) : nat -> store -> nat -> store -> Prop :=
| tu_exit t s : truth (eval (env t s) e) = false -> turns env e b t s 0 (env t s)
| tu_turn t s s1 n s' : truth (eval (env t s) e) = true -> exec true b (env t s) Normal s1 -> turns env e b (S t) s1 n s' -> turns env e b t s (S n) s'.
Lemma turns_loops env e b t s n s' : timelesss b = true -> turns env e b t s n s' -> loops env e b t s (S (t + n)) Busy s'.
Proof.
  intros TL H. destruct (timelesss_free b TL) as [_ [_ NB]]. induction H as [t s E|t s s1 n s' E X H IH].
  - rewrite Nat.add_0_r. pose proof (kl_exit env e b t s E) as K. rewrite NB in K. exact K.
  - destruct (timeless_takes env true) as [_ TT]. destruct (TT _ _ _ _ X TL (S t) Busy eq_refl) as [_ [f [_ [_ K]]]].
    eapply kl_iter; [exact E|exact K|]. replace (S (t + S n)) with (S (S t + n)) by lia. exact IH.
Qed.

(** A chain, then loops each followed by a chain. *)
Definition loop : Type := expr * list stmt * list stmt.
Definition text (ls : list loop) : list stmt := flat_map (fun l => match l with (e, b, p) => SWhile e b :: p end) ls.
Definition simple (ls : list loop) : bool := forallb (fun l => match l with (e, b, p) => timelesss b && timelesss p end) ls.
(** [N]: one cycle for each loop, and one for each iteration. *)
Inductive series (env : nat -> store -> store) : list loop -> nat -> store -> nat -> store -> Prop :=
| sr_nil t s : series env [] t s 0 s
| sr_cons e b p ls t s n s1 s2 N s' : turns env e b t s n s1 -> exec true p s1 Normal s2 -> series env ls (t + 1 + n) s2 N s' ->
    series env ((e, b, p) :: ls) t s (1 + n + N) s'.
Lemma takes_app env l1 l2 t f s t1 f1 s1 o t' f' s' : takes env l1 t f s Normal t1 f1 s1 -> takes env l2 t1 f1 s1 o t' f' s' -> takes env (l1 ++ l2) t f s o t' f' s'.
Proof.
  revert t f s. induction l1 as [|x l IH]; intros t f s H1 H2; inversion H1; subst; cbn [app]; [exact H2|]. eapply ks_cons; [eassumption|]. eapply IH; eassumption.
Qed.
Lemma series_takes env ls t s N s' : series env ls t s N s' -> simple ls = true -> forall f, begun f = true ->
  exists f', takes env (text ls) t f s Normal (t + N) f' s' /\ (ls <> [] -> f' = Busy) /\ begun f' = true.
Proof.
  intros H. induction H as [t s|e b p ls t s n s1 s2 N s' TU X SR IH]; intros SI f B.
  - exists f. rewrite Nat.add_0_r. split; [constructor|]. split; [congruence|exact B].
  - cbn in SI. apply andb_true_iff in SI. destruct SI as [SI S2]. apply andb_true_iff in SI. destruct SI as [Tb Tp].
    destruct (timeless_takes env true) as [_ TT]. destruct (TT _ _ _ _ X Tp (t + 1 + n) Busy eq_refl) as [_ [f1 [B1 [C1 K1]]]]. rewrite (C1 eq_refl) in K1.
    destruct (IH S2 Busy eq_refl) as [f2 [K2 [C2 B2]]]. exists f2. split; [|split; [|exact B2]].
    + cbn [text flat_map]. cbn [app]. eapply ks_cons; [apply k_while; eapply turns_loops; [exact Tb|exact TU]|]. replace (S (t + n)) with (t + 1 + n) by lia.
      eapply takes_app; [exact K1|]. replace (t + (1 + n + N)) with (t + 1 + n + N) by lia. exact K2.
    + intros _. destruct ls as [|l ls]; [|apply C2; discriminate]. inversion K2; subst. reflexivity.
Qed.

(** Entering each loop takes one cycle, each iteration one, leaving it none. *)
Theorem C49_loops_partial : forall fuel unit deps0 p0 ls m inp pre s0 s1 N s,
  compile fuel unit deps0 (p0 ++ text ls) = Some m -> Legal deps0 pre (p0 ++ text ls) -> timelesss p0 = true -> simple ls = true -> ls <> [] ->
  exec true p0 (env inp pre 0 s0) Normal s1 -> series (env inp pre) ls 1 s1 N s ->
  runs m inp pre (1 + N) s0 = Some (s, 0) /\ (forall n, n < 1 + N -> exists D i, runs m inp pre n s0 = Some (D, i) /\ i <> 0).
Proof.
  intros fuel unit deps0 p0 ls m inp pre s0 s1 N s CP LG TL SI NE X SR.
  assert (NG : gotoss (p0 ++ text ls) = []).
  { unfold gotoss. rewrite flat_map_app. fold (gotoss p0). rewrite (proj1 (timelesss_free p0 TL)). cbn [app]. clear - SI. induction ls as [|[[e b] p] ls IH]; [reflexivity|].
    cbn in SI. apply andb_true_iff in SI. destruct SI as [SI S2]. apply andb_true_iff in SI. destruct SI as [Tb Tp]. unfold text. cbn [flat_map app].
    rewrite flat_map_app. fold (text ls). rewrite (IH S2). cbn [gotos]. fold (gotoss b). fold (gotoss p). now rewrite (proj1 (timelesss_free b Tb)), (proj1 (timelesss_free p Tp)). }
  destruct (timeless_takes (env inp pre) true) as [_ TT]. destruct (TT _ _ _ _ X TL 1 Fresh eq_refl) as [_ [f1 [B1 [_ K1]]]].
  destruct (series_takes _ _ _ _ _ _ SR SI f1 B1) as [f2 [K2 [C2 _]]]. rewrite (C2 NE) in K2. pose proof (takes_app _ _ _ _ _ _ _ _ _ _ _ _ _ K1 K2) as K.
  destruct (machine_cycles fuel unit deps0 _ m inp pre CP LG NG s0 (1 + N) Busy s K) as [_ [M2 [[i M3] M4]]]. split; [|now apply M4].
  destruct (M2 (1 + N)) as [D H]; [cbn; lia|]. rewrite M3 in H. congruence.
Qed.

(** * Conditionals *)
(** Chains separated by [++:], executed one per cycle. *)
Definition cyc (c : list stmt) (cs : list (list stmt)) : list stmt := c ++ flat_map (fun c => SStep :: c) cs.
Inductive chained (env : nat -> store -> store) : list stmt -> list (list stmt) -> nat -> store -> store -> Prop :=
| cn_last c t s s' : exec true c s Normal s' -> chained env c [] t s s'
| cn_next c c' cs t s s1 s' : exec true c s Normal s1 -> chained env c' cs (S t) (env t s1) s' -> chained env c (c' :: cs) t s s'.
Lemma chained_takes env c cs t s s' : chained env c cs t s s' -> timelesss c = true -> forallb timelesss cs = true -> forall f, begun f = true ->
  exists f', takes env (cyc c cs) t f s Normal (t + length cs) f' s' /\ begun f' = true.
Proof.
  destruct (timeless_takes env true) as [_ TT]. intros H. induction H as [c t s s' X|c c' cs t s s1 s' X H IH]; intros T1 T2 f B.
  - destruct (TT _ _ _ _ X T1 t f B) as [_ [f' [B1 [_ K]]]]. exists f'. unfold cyc. cbn. rewrite app_nil_r, Nat.add_0_r. auto.
  - cbn in T2. apply andb_true_iff in T2. destruct T2 as [T2 T3]. destruct (TT _ _ _ _ X T1 t f B) as [_ [f1 [B1 [_ K]]]]. destruct (IH T2 T3 Fresh eq_refl) as [f2 [K2 B2]].
    exists f2. split; [|exact B2]. unfold cyc. cbn [flat_map app length]. eapply takes_app; [exact K|]. eapply ks_cons; [now apply k_step|].
    replace (t + S (length cs)) with (S t + length cs) by lia. exact K2.
Qed.
Lemma cyc_static c cs : timelesss c = true -> forallb timelesss cs = true ->
  gotoss (cyc c cs) = [] /\ reachess (cyc c cs) = true /\ timelesss (cyc c cs) = Nat.eqb (length cs) 0.
Proof.
  intros T1 T2. unfold cyc.
  assert (H : gotoss (flat_map (fun c => SStep :: c) cs) = [] /\ reachess (flat_map (fun c => SStep :: c) cs) = true).
  { induction cs as [|x cs IH]; [split; reflexivity|]. cbn in T2. apply andb_true_iff in T2. destruct T2 as [T2 T3]. destruct (IH T3) as [I1 I2].
    unfold gotoss, reachess in *. cbn [flat_map app gotos forallb reaches andb]. rewrite flat_map_app, forallb_app, I1, I2. fold (gotoss x). fold (reachess x).
    rewrite (proj1 (timelesss_free x T2)), (timelesss_reachess x T2). auto. }
  destruct H as [H1 H2]. unfold gotoss, reachess, timelesss in *. rewrite flat_map_app, !forallb_app, H1, H2. fold (gotoss c). fold (reachess c).
  rewrite (proj1 (timelesss_free c T1)), (timelesss_reachess c T1), T1. split; [reflexivity|]. split; [reflexivity|]. destruct cs as [|x cs]; reflexivity.
Qed.

(** A conditional whose branches are sequences of chains: the cycles of the branch that is taken, plus one, before what follows, when one of the two
    branches, taken or not, contains [++:]. *)
Theorem C49_if_partial : forall fuel unit deps0 p0 e c1 cs1 c2 cs2 x e2 p2 m inp pre s0 s1 s2 s,
  let p := p0 ++ SIfElse e (cyc c1 cs1) (cyc c2 cs2) :: SAssign x e2 :: p2 in
  let steps := if truth (eval s1 e) then length cs1 else length cs2 in
  let extra := if Nat.eqb (length cs1 + length cs2) 0 then 0 else 1 in
  let s3 := if Nat.eqb (length cs1 + length cs2) 0 then s2 else env inp pre (1 + steps) s2 in
  compile fuel unit deps0 p = Some m -> Legal deps0 pre p -> forallb timelesss (p0 :: c1 :: c2 :: p2 :: cs1 ++ cs2) = true ->
  exec true p0 (env inp pre 0 s0) Normal s1 ->
  (if truth (eval s1 e) then chained (env inp pre) c1 cs1 1 s1 s2 else chained (env inp pre) c2 cs2 1 s1 s2) ->
  exec true p2 (upd s3 x (eval s3 e2)) Normal s ->
  runs m inp pre (1 + steps + extra) s0 = Some (s, 0) /\ (forall n, n < 1 + steps + extra -> exists D i, runs m inp pre n s0 = Some (D, i) /\ i <> 0).
Proof.
  intros fuel unit deps0 p0 e c1 cs1 c2 cs2 x e2 p2 m inp pre s0 s1 s2 s p steps extra s3 CP LG TL X0 CH X2.
  cbn in TL. repeat (apply andb_true_iff in TL; destruct TL as [?T TL]). rewrite forallb_app in TL. apply andb_true_iff in TL. destruct TL as [T3 T4].
  destruct (cyc_static c1 cs1 T0 T3) as [G1 [R1 L1]]. destruct (cyc_static c2 cs2 T1 T4) as [G2 [R2 L2]].
  assert (NG : gotoss p = []).
  { unfold p, gotoss. rewrite flat_map_app. cbn [flat_map gotos app]. fold (gotoss p0). fold (gotoss (cyc c1 cs1)). fold (gotoss (cyc c2 cs2)). fold (gotoss p2).
    now rewrite (proj1 (timelesss_free p0 T)), (proj1 (timelesss_free p2 T2)), G1, G2. }
  assert (CT : cut (SIfElse e (cyc c1 cs1) (cyc c2 cs2)) = negb (Nat.eqb (length cs1 + length cs2) 0)).
  { cbn [cut]. rewrite R1, R2, L1, L2. destruct (length cs1), (length cs2); reflexivity. }
  destruct (timeless_takes (env inp pre) true) as [_ TT]. destruct (TT _ _ _ _ X0 T 1 Fresh eq_refl) as [_ [f1 [B1 [_ K1]]]].
  assert (K2 : exists f2, takes (env inp pre) (if truth (eval s1 e) then cyc c1 cs1 else cyc c2 cs2) 1 Busy s1 Normal (1 + steps) f2 s2 /\ begun f2 = true).
  { unfold steps. destruct (truth (eval s1 e)); [apply (chained_takes _ _ _ _ _ _ CH T0 T3 Busy eq_refl)|apply (chained_takes _ _ _ _ _ _ CH T1 T4 Busy eq_refl)]. }
  destruct K2 as [f2 [K2 B2]]. pose proof (k_ifelse _ _ _ _ _ _ _ _ _ _ _ B1 K2) as K3. rewrite CT in K3.
  assert (K4 : takes1 (env inp pre) (SAssign x e2) (1 + steps) (endif (negb (Nat.eqb (length cs1 + length cs2) 0)) f2) s2 Normal (1 + steps + extra) Busy (upd s3 x (eval s3 e2))).
  { unfold extra, s3. destruct (Nat.eqb (length cs1 + length cs2) 0); cbn [negb endif].
    - rewrite Nat.add_0_r. now apply k_assign.
    - apply k_begin; [reflexivity|]. rewrite (Nat.add_1_r (1 + steps)). now apply k_assign. }
  destruct (TT _ _ _ _ X2 T2 (1 + steps + extra) Busy eq_refl) as [_ [f5 [_ [C5 K5]]]]. rewrite (C5 eq_refl) in K5.
  assert (K : takes (env inp pre) p 1 Fresh (env inp pre 0 s0) Normal (1 + steps + extra) Busy s).
  { unfold p. eapply takes_app; [exact K1|]. eapply ks_cons; [exact K3|]. eapply ks_cons; [exact K4|exact K5]. }
  destruct (machine_cycles fuel unit deps0 _ m inp pre CP LG NG s0 _ Busy s K) as [_ [M2 [[i M3] M4]]]. split; [|now apply M4].
  destruct (M2 (1 + steps + extra)) as [D H]; [cbn; lia|]. rewrite M3 in H. congruence.
Qed.

(** * Examples *)
Ltac tk := repeat (cbv beta iota zeta; cbn [assigns map fst snd app]; first
  [ apply ks_nil
  | eapply ks_broke; apply k_break
  | match goal with |- takes _ (SBreak :: _) _ _ _ _ _ _ _ => eapply ks_broke end
  | match goal with |- takes _ (if ?c then _ else _) _ _ _ _ _ _ _ => let v := eval vm_compute in c in change c with v end
  | match goal with |- takes _ (match ?c with Some _ => _ | None => _ end) _ _ _ _ _ _ _ => let v := eval vm_compute in c in change c with v end
  | eapply ks_cons
  | match goal with |- takes1 _ _ _ (endif ?c ?f) _ _ _ _ _ => let v := eval vm_compute in (endif c f) in change (endif c f) with v end
  | apply k_begin; [reflexivity|]
  | apply k_assign; reflexivity | apply k_return; reflexivity | apply k_step; reflexivity | apply k_label | apply k_block
  | apply k_if; [reflexivity|] | apply k_ifelse; [reflexivity|] | apply k_switch; [reflexivity|] | apply k_while | apply k_join
  | apply kl_exit; reflexivity | eapply kl_iter; [reflexivity| |] | eapply kj_done; [reflexivity|] | eapply kj_wait; [reflexivity|] ]).

(** A loop with a conditional containing [++:], an instance that is done in the sixth cycle. *)
Definition p49 : list stmt := [ SWhile (lt 0 2) [ SIf (lt 0 1) [ inc 3; SStep; inc 3 ]; inc 0 ]; SJoin (EV 1) [ (2, EV 5) ]; SStep; inc 4 ].
Definition in49 (t : nat) (s : store) : store := upd (upd s 5 (Z.of_nat t)) 1 (if Nat.ltb t 8 then 0 else 1)%Z.
Example C49_cycles_ex : exists m s, compile 100 true [] p49 = Some m /\ Legal [] closed p49 /\ gotoss p49 = [] /\
  takes (env in49 closed) p49 1 Fresh (env in49 closed 0 (st 0 0)) Normal 11 Busy s /\ map s (seq 0 6) = [2; 1; 9; 2; 1; 10]%Z /\
  obs 6 (runs m in49 closed 11 (st 0 0)) = Some ([2; 1; 9; 2; 1; 10]%Z, 0).
Proof.
  eexists. eexists. split; [vm_compute; reflexivity|]. split; [constructor; auto|]. split; [reflexivity|]. split; [unfold p49; tk|]. split; vm_compute; reflexivity.
Qed.
Example C49_lockstep_ex : exists m D i c, compile 100 true [] p49 = Some m /\ runs m in49 closed 9 (st 0 0) = Some (D, i) /\ i <> 0 /\
  after (env in49 closed) 9 (Run (SStep :: body true p49) KStop, st 0 0) (c, D) /\ D 2 = 0%Z.
Proof.
  destruct C49_cycles_ex as [m [s [CP [LG [NG _]]]]]. destruct (C49_lockstep_partial 100 true [] p49 m in49 closed CP LG NG 9 (st 0 0)) as [D [i [c [R [A _]]]]].
  exists m, D, i, c. split; [exact CP|]. split; [exact R|]. vm_compute in CP. injection CP as <-. vm_compute in R. injection R as <- <-.
  split; [discriminate|]. split; [exact A|]. reflexivity.
Qed.
Example C49_terminating_ex : exists m s', compile 200 true [] p1 = Some m /\ structureds false p1 = true /\ covereds p1 = true /\ exec false p1 (st 0 0) Normal s' /\ s' 0 = 5%Z.
Proof.
  destruct C01_ex as [m [CP [ST [CV [_ O]]]]]. unfold obs in O. destruct (runs m closed closed 60 (st 0 0)) as [[s' i]|] eqn:R; [|discriminate].
  cbn [map seq] in O. injection O as O0 O1 O2 O3 O4 O5 O6 O7 ->. exists m, s'. split; [exact CP|]. split; [exact ST|]. split; [exact CV|]. split; [|exact O0].
  apply (C01_structured_partial 200 true [] p1 m (st 0 0) s' CP ST CV). now exists 60.
Qed.
Ltac ex := repeat (cbv beta iota zeta; first
  [ apply x_nil | eapply x_cons | apply x_assign | apply x_label | apply x_block | apply x_ifelse | apply x_if | apply x_switch
  | match goal with |- exec _ (if ?c then _ else _) _ _ _ => let v := eval vm_compute in c in change c with v end
  | match goal with |- exec _ (match ?c with Some _ => _ | None => _ end) _ _ _ => let v := eval vm_compute in c in change c with v end ]).
Definition chain49 : list stmt := [ inc 0; SIfElse (lt 0 5) [ SSwitch (EV 0) [ (Some 1%Z, [ inc 2 ]); (None, [ inc 3 ]) ] ] [ inc 4 ]; SLabel 3; set 1 7 ].
Example C49_chain_ex : exists m s, compile 100 true [] chain49 = Some m /\ Legal [] closed chain49 /\ timelesss chain49 = true /\
  exec true chain49 (env in49 closed 0 (st 0 0)) Normal s /\ map s (seq 0 5) = [1; 7; 1; 0; 0]%Z.
Proof. eexists. eexists. split; [vm_compute; reflexivity|]. split; [constructor; auto|]. split; [reflexivity|]. split; [unfold chain49, inc, set; ex|reflexivity]. Qed.
(** Two loops, of three iterations and of one: 1 + (1 + 3) + (1 + 1) cycles. *)
Definition loops49 : list loop := [ (lt 0 3, [ inc 0; SIf (lt 0 2) [ inc 2 ] ], [ inc 3 ]); (lt 2 2, [ inc 2 ], [ inc 4 ]) ].
Example C49_loops_ex : exists m s, compile 100 true [] ([ inc 3 ] ++ text loops49) = Some m /\ Legal [] closed ([ inc 3 ] ++ text loops49) /\ simple loops49 = true /\
  exec true [ inc 3 ] (env closed closed 0 (st 0 0)) Normal (upd (st 0 0) 3 1%Z) /\ series (env closed closed) loops49 1 (upd (st 0 0) 3 1%Z) 6 s /\
  map s (seq 0 5) = [3; 0; 2; 2; 1]%Z /\ obs 5 (runs m closed closed 7 (st 0 0)) = Some ([3; 0; 2; 2; 1]%Z, 0).
Proof.
  eexists. eexists. split; [vm_compute; reflexivity|]. split; [constructor; auto|]. split; [reflexivity|]. split; [unfold inc; ex|]. split.
  - eapply (sr_cons _ _ _ _ _ 1 _ 3 _ _ 2); [|unfold inc; ex|].
    + eapply tu_turn; [reflexivity|unfold inc; ex|]. eapply tu_turn; [reflexivity|unfold inc; ex|]. eapply tu_turn; [reflexivity|unfold inc; ex|]. apply tu_exit. reflexivity.
    + eapply (sr_cons _ _ _ _ _ _ _ 1 _ _ 0); [|unfold inc; ex|apply sr_nil]. eapply tu_turn; [reflexivity|unfold inc; ex|]. apply tu_exit. reflexivity.
  - split; vm_compute; reflexivity.
Qed.
(** A branch of three cycles and a branch of one: four cycles and two. *)
Definition if49 : list stmt := [ inc 2; SIfElse (EV 1) (cyc [ inc 3 ] [ [ inc 3 ]; [ inc 3 ] ]) (cyc [ inc 4 ] []); SAssign 5 (EV 3); inc 2 ].
Example C49_if_ex : exists m, compile 100 true [] if49 = Some m /\ Legal [] closed if49 /\
  (exists s2, chained (env closed closed) [ inc 3 ] [ [ inc 3 ]; [ inc 3 ] ] 1 (upd (st 0 1) 2 1%Z) s2 /\ s2 3 = 3%Z) /\
  obs 6 (runs m closed closed 4 (st 0 1)) = Some ([0; 1; 2; 3; 0; 3]%Z, 0) /\ (exists v, obs 6 (runs m closed closed 3 (st 0 1)) = Some (v, 2)) /\
  obs 6 (runs m closed closed 2 (st 0 0)) = Some ([0; 0; 2; 0; 1; 0]%Z, 0) /\ (exists v, obs 6 (runs m closed closed 1 (st 0 0)) = Some (v, 2)).
Proof.
  eexists. split; [vm_compute; reflexivity|]. split; [constructor; auto|]. split; [|split; [|split; [|split]]].
  - eexists. split; [eapply cn_next; [unfold inc; ex|]; eapply cn_next; [unfold inc; ex|]; apply cn_last; unfold inc; ex|reflexivity].
  - vm_compute. reflexivity.
  - eexists. vm_compute. reflexivity.
  - vm_compute. reflexivity.
  - eexists. vm_compute. reflexivity.
Qed.

(** * Differences with the documentation *)
(** "Exiting a while does not take a cycle": it does when the body contains [break], even if no break is executed. The two programs have the same
    iterations; in the cycle where the condition is false the first executes what follows the loop, the second does not. *)
Theorem C49_exit_refuted : exists b1 b2 m1 m2 e,
  compile 100 true [] [ SWhile e b1; set 2 1 ] = Some m1 /\ compile 100 true [] [ SWhile e b2; set 2 1 ] = Some m2 /\
  (forall n, n <= 4 -> obs 3 (runs m1 closed closed n (st 0 0)) = obs 3 (runs m2 closed closed n (st 0 0))) /\
  (forall D i, runs m1 closed closed 4 (st 0 0) = Some (D, i) -> truth (eval D e) = false) /\
  obs 3 (runs m1 closed closed 5 (st 0 0)) = Some ([3; 0; 1]%Z, 0) /\
  obs 3 (runs m2 closed closed 5 (st 0 0)) = Some ([3; 0; 0]%Z, 3) /\ obs 3 (runs m2 closed closed 6 (st 0 0)) = Some ([3; 0; 1]%Z, 0).
Proof.
  exists [ inc 0 ], [ SIf (EV 1) [ SBreak ]; inc 0 ]. eexists. eexists. exists (lt 0 3). split; [vm_compute; reflexivity|]. split; [vm_compute; reflexivity|]. split; [|split].
  - intros n L. destruct n as [|[|[|[|[|n]]]]]; [| | | | |lia]; vm_compute; reflexivity.
  - intros D i H. vm_compute in H. injection H as <- <-. vm_compute. reflexivity.
  - vm_compute. auto.
Qed.
(** "If only one branch reaches after, no additional cycle is required": one is, when the branch that reaches after has cycles of its own. Iterations take
    three cycles, not the two of the branch. *)
Theorem C49_one_branch_refuted : exists m, compile 100 true [] [ SWhile (lt 0 3) [ SIfElse (EV 1) [ SStep; inc 3 ] [ SBreak ]; inc 0 ]; set 2 1 ] = Some m /\
  map (fun n => obs 4 (runs m closed closed n (st 0 1))) [ 1; 3; 4; 6; 7 ] =
    [ Some ([0; 1; 0; 0]%Z, 2); Some ([0; 1; 0; 1]%Z, 4); Some ([1; 1; 0; 1]%Z, 2); Some ([1; 1; 0; 2]%Z, 4); Some ([2; 1; 0; 2]%Z, 2) ].
Proof. eexists. split; vm_compute; reflexivity. Qed.
(** The same when the branch that does not reach after breaks under conditions: iterations take two cycles, although no instruction of the loop that is
    executed needs any. *)
Theorem C49_nested_break_refuted : exists m, compile 100 true [] [ SWhile (lt 0 3) [ SIf (EV 1) [ SIfElse (EV 2) [ SBreak ] [ SBreak ] ]; inc 0 ]; set 3 1 ] = Some m /\
  map (fun n => obs 1 (runs m closed closed n (st 0 0))) [ 1; 2; 3; 4; 5 ] = [ Some ([0]%Z, 2); Some ([0]%Z, 4); Some ([1]%Z, 2); Some ([1]%Z, 4); Some ([2]%Z, 2) ].
Proof. eexists. split; vm_compute; reflexivity. Qed.

Print Assumptions C49_lockstep_partial.
Print Assumptions C49_cycles_partial.
Print Assumptions C49_terminating_partial.
Print Assumptions C49_chain_partial.
Print Assumptions C49_loops_partial.
Print Assumptions C49_if_partial.
Print Assumptions C49_exit_refuted.
Print Assumptions C49_one_branch_refuted.
Print Assumptions C49_nested_break_refuted.
