(** Ordinary semantics of programs, without cycles, and the relation with the executions cycle by cycle. *)
From Coq Require Import List Bool Arith ZArith Lia.
Import ListNotations.
From Verif Require Import FsmModel FsmEmit FsmLayout FsmRegion FsmStates FsmSource FsmRun.

(** * Ordinary execution of structured programs. [ret]: [return] is accepted, as an instruction that does nothing; used for C04 only. *)
Inductive outcome := Normal | Broke.
Section Ret.
Variable ret : bool.
Inductive exec1 : stmt -> store -> outcome -> store -> Prop :=
| x_assign x e s : exec1 (SAssign x e) s Normal (upd s x (eval s e))
| x_block l s o s' : exec l s o s' -> exec1 (SBlock l) s o s'
| x_if e l s o s' : exec (if truth (eval s e) then l else []) s o s' -> exec1 (SIf e l) s o s'
| x_ifelse e l1 l2 s o s' : exec (if truth (eval s e) then l1 else l2) s o s' -> exec1 (SIfElse e l1 l2) s o s'
| x_switch e cs s o s' : exec (match pick (eval s e) cs with Some l => l | None => [] end) s o s' -> exec1 (SSwitch e cs) s o s'
| x_while_end e b s : truth (eval s e) = false -> exec1 (SWhile e b) s Normal s
| x_while_next e b s s1 s2 : truth (eval s e) = true -> exec b s Normal s1 -> exec1 (SWhile e b) s1 Normal s2 -> exec1 (SWhile e b) s Normal s2
| x_while_break e b s s1 : truth (eval s e) = true -> exec b s Broke s1 -> exec1 (SWhile e b) s Normal s1
| x_break s : exec1 SBreak s Broke s
| x_step s : exec1 SStep s Normal s
| x_label n s : exec1 (SLabel n) s Normal s
| x_return s : ret = true -> exec1 SReturn s Normal s
with exec : list stmt -> store -> outcome -> store -> Prop :=
| x_nil s : exec [] s Normal s
| x_cons x r s s1 o s2 : exec1 x s Normal s1 -> exec r s1 o s2 -> exec (x :: r) s o s2
| x_broke x r s s1 : exec1 x s Broke s1 -> exec (x :: r) s Broke s1.
Scheme exec1_mut := Minimality for exec1 Sort Prop with exec_mut := Minimality for exec Sort Prop.
Combined Scheme exec_mutind from exec1_mut, exec_mut.

(** No goto or wait. *)
Fixpoint structured (st : stmt) : bool :=
  match st with
  | SBlock l => forallb structured l
  | SIf _ l => forallb structured l
  | SIfElse _ l1 l2 => forallb structured l1 && forallb structured l2
  | SSwitch _ cs => forallb (fun c => forallb structured (snd c)) cs
  | SWhile _ l => forallb structured l
  | SGoto _ | SJoin _ _ => false
  | SReturn => ret
  | _ => true
  end.
Definition structureds (l : list stmt) : bool := forallb structured l.
End Ret.

(** * Small steps without cycles *)
Definition sconf : Type := list stmt * kont * store.
Section Small.
  Variable prog : list stmt.
  Definition nx (c : sconf) : option sconf :=
    match c with
    | ([], KStop, _) => None
    | ([], KSeq _ r k, s) => Some (r, k, s)
    | ([], KLoop e b r k, s) => Some (SWhile e b :: r, k, s)
    | (x :: r, k, s) =>
        match x with
        | SAssign x e => Some (r, k, upd s x (eval s e))
        | SBlock l => Some (l, KSeq false r k, s)
        | SIf e l => Some (if truth (eval s e) then l else [], KSeq (negb (timeless (SIf e l))) r k, s)
        | SIfElse e l1 l2 => Some (if truth (eval s e) then l1 else l2, KSeq (negb (timeless (SIfElse e l1 l2))) r k, s)
        | SSwitch e cs => Some (match pick (eval s e) cs with Some l => l | None => [] end, KSeq (negb (timeless (SSwitch e cs))) r k, s)
        | SWhile e b => Some (if truth (eval s e) then (b, KLoop e b r k, s) else (r, k, s))
        | SBreak => match brkk k with Some (r', k') => Some (r', k', s) | None => None end
        | SStep | SLabel _ | SReturn => Some (r, k, s)
        | SGoto n => match find n prog KStop with Some (r', k') => Some (r', k', s) | None => None end
        | SJoin d rb => Some (if truth (eval s d) then (assigns rb ++ r, k, s) else (x :: r, k, s))
        end
    end.
  Fixpoint nxs (n : nat) (c : sconf) : option sconf := match n with O => Some c | S n' => do c' <- nx c; nxs n' c' end.

  Lemma nxs_app n m c : nxs (n + m) c = do c' <- nxs n c; nxs m c'.
  Proof. revert c. induction n as [|n IH]; intros c; cbn; [reflexivity|]. destruct (nx c); cbn; auto. Qed.
  Lemma nxs_join n m a b c : nxs n a = Some b -> nxs m b = Some c -> nxs (n + m) a = Some c.
  Proof. intros H1 H2. rewrite nxs_app, H1. exact H2. Qed.

  Definition er (c : config) : list stmt * kont :=
    match c with
    | Run l k | Jump l k => (l, k)
    | Test e b r k => (SWhile e b :: r, k)
    | Wait d rb r k => (SJoin d rb :: r, k)
    end.
  Definition ers (c : config * store) : sconf := (er (fst c), snd c).

  (** Run configurations at a beginning, tests and waits make progress. *)
  Lemma silent_nx a b : silent prog a b -> nx (ers a) = Some (ers b) \/
    (ers a = ers b /\ ((exists e c r k, fst a = Run (SWhile e c :: r) k) \/ exists d rb r k, fst a = Run (SJoin d rb :: r) k)).
  Proof.
    intros H. destruct H; unfold ers; cbn -[timeless hasbrks assigns app]; auto.
    - right. split; [reflexivity|]. left. repeat eexists.
    - left. destruct (truth (eval s e)); [reflexivity|]. now destruct (hasbrks b).
    - left. now rewrite H.
    - left. now destruct (memb n (gotoss prog)).
    - left. now rewrite H.
    - right. split; [reflexivity|]. right. repeat eexists.
    - left. now destruct (truth (eval s d)).
    - left. now rewrite H.
    - left. now rewrite H.
  Qed.
  Lemma silents_nx a b : silents prog a b -> exists n, nxs n (ers a) = Some (ers b).
  Proof.
    induction 1 as [c|a b c H H1 [n IH]]; [now exists 0|]. destruct (silent_nx _ _ H) as [E|[E _]].
    - exists (S n). cbn [nxs]. rewrite E. exact IH.
    - exists n. now rewrite E.
  Qed.
  Lemma tick_nx c c' s : tick c c' -> exists n, nxs n (ers (c, s)) = Some (ers (c', s)).
  Proof. intros H. destruct H; try (now exists 0). now exists 1. Qed.

  Definition closed : nat -> store -> store := fun _ s => s.

  Lemma reach_nx n a b : reach prog closed n a b -> exists L, nxs L (ers a) = Some (ers b).
  Proof.
    induction 1 as [a b H|n a c s c1 b H [L IH] T S]; [now apply silents_nx|]. destruct (tick_nx _ _ s T) as [L1 H1]. destruct (silents_nx _ _ S) as [L2 H2].
    exists (L + (L1 + L2)). eapply nxs_join; [exact IH|]. eapply nxs_join; [exact H1|exact H2].
  Qed.

  Lemma over_nx c s : over prog c -> exists n, nxs n (ers (c, s)) = Some ([], KStop, s).
  Proof.
    intros [c1 [[ ->|T] H]].
    - destruct (silents_nx _ _ (H s)) as [n E]. now exists n.
    - destruct (tick_nx _ _ s T) as [n1 E1]. destruct (silents_nx _ _ (H s)) as [n2 E2]. exists (n1 + n2). eapply nxs_join; eassumption.
  Qed.

  (** Cycles take steps. *)
  Definition phi (c : config) : nat := match c with Run _ _ => 1 | _ => 0 end.
  Definition ticks (c : config) : Prop := exists c', tick c c'.
  Lemma no_silent_stop s b : ~ silent prog (Run [] KStop, s) b.
  Proof. intros H. inversion H. Qed.
  Lemma silents_stop s b : silents prog (Run [] KStop, s) b -> b = (Run [] KStop, s).
  Proof. intros H. inversion H; subst; [reflexivity|]. destruct (no_silent_stop _ _ H0). Qed.

  (** After a tick and the steps of the cycle. *)
  Lemma cycle_nx c c1 s b : tick c c1 -> silents prog (c1, s) b -> ticks (fst b) -> fst b <> Run [] KStop ->
    exists L, nxs L (ers (c, s)) = Some (ers b) /\ phi c < 2 * L + phi (fst b).
  Proof.
    intros T S Tb Nb. destruct T.
    - inversion S as [x|x y z S1 S2]; subst.
      + exists 0. split; [reflexivity|]. cbn. lia.
      + destruct (silent_nx _ _ S1) as [E|[_ [[e [b0 [r [k0 X]]]]|[d [rb [r [k0 X]]]]]]]; try (cbn in X; injection X as -> ->; discriminate).
        destruct (silents_nx _ _ S2) as [n E2]. exists (1 + n). split; [eapply nxs_join; [|exact E2]; cbn [nxs]; change (ers (Jump l k, s)) with (ers (Run l k, s)); now rewrite E|cbn; lia].
    - inversion S as [x|x y z S1 S2]; subst; [destruct Tb as [? Tb]; inversion Tb|].
      destruct (silent_nx _ _ S1) as [E|[_ [[e0 [b1 [r0 [k0 X]]]]|[d [rb [r0 [k0 X]]]]]]]; try discriminate.
      destruct (silents_nx _ _ S2) as [n E2]. exists (1 + n). split; [eapply nxs_join; [|exact E2]; cbn [nxs]; change (ers (Jump (SWhile e b0 :: r) k, s)) with (ers (Test e b0 r k, s)); now rewrite E|cbn; lia].
    - inversion S as [x|x y z S1 S2]; subst; [destruct Tb as [? Tb]; inversion Tb|].
      destruct (silent_nx _ _ S1) as [E|[_ [[e0 [b1 [r0 [k0 X]]]]|[d0 [rb0 [r0 [k0 X]]]]]]]; try discriminate.
      destruct (silents_nx _ _ S2) as [n E2]. exists (1 + n). split; [eapply nxs_join; [|exact E2]; cbn [nxs]; change (ers (Jump (SJoin d rb :: r) k, s)) with (ers (Wait d rb r k, s)); now rewrite E|cbn; lia].
    - destruct (silents_nx _ _ S) as [n E]. exists (1 + n). split; [eapply nxs_join; [reflexivity|exact E]|cbn; lia].
    - apply silents_stop in S. subst b. cbn in Nb. congruence.
  Qed.

  Lemma reach_stop n a c s b c1 : reach prog closed n a (c, s) -> tick c c1 -> silents prog (c1, s) b -> fst b <> Run [] KStop -> c <> Run [] KStop.
  Proof. intros _ T S N ->. inversion T; subst. apply silents_stop in S. subst b. now apply N. Qed.

  Lemma reach_progress n l s0 b : reach prog closed n (Run (SStep :: l) KStop, s0) b -> ticks (fst b) -> fst b <> Run [] KStop ->
    exists L, nxs L (SStep :: l, KStop, s0) = Some (ers b) /\ n < 2 * L + phi (fst b).
  Proof.
    remember (Run (SStep :: l) KStop, s0) as a eqn:Ea. intros H. induction H as [a b H|n a c s c1 b H IH T S]; intros Tb Nb; subst.
    - inversion H; subst; [exists 0; cbn; split; [reflexivity|lia]|]. inversion H0.
    - destruct (IH eq_refl) as [L [E1 E2]]; [now exists c1|eapply reach_stop; eassumption|]. destruct (cycle_nx _ _ _ _ T S Tb Nb) as [L2 [E3 E4]].
      exists (L + L2). split; [eapply nxs_join; eassumption|]. cbn in E2. lia.
  Qed.

  (** Ends are unique. *)
  Lemma stop_nx c n d : nx c = None -> nxs n c = Some d -> n = 0 /\ d = c.
  Proof. intros E H. destruct n; cbn in H; [split; congruence|]. rewrite E in H. discriminate. Qed.
  Lemma nxs_det n1 n2 a b c : nxs n1 a = Some b -> nx b = None -> nxs n2 a = Some c -> n2 <= n1 /\ nxs (n1 - n2) c = Some b.
  Proof.
    revert n2 a. induction n1 as [|n1 IH]; intros n2 a H1 Eb H2.
    - injection H1 as ->. destruct (stop_nx _ _ _ Eb H2) as [ -> ->]. auto.
    - destruct n2 as [|n2]; [injection H2 as ->; split; [lia|exact H1]|]. cbn in H1, H2. destruct (nx a) as [a'|]; [|discriminate]. cbn in H1, H2.
      destruct (IH n2 a' H1 Eb H2) as [X Y]. split; [lia|exact Y].
  Qed.
End Small.

(** * The machine alone: no input, no always_before block *)
Section Closed.
  Variables (fuel : nat) (unit : bool) (deps0 : list var) (p : list stmt) (m : fsm).
  Hypothesis CP : compile fuel unit deps0 p = Some m.
  Hypothesis NJ : nojumps (gotoss p) p = true.
  Hypothesis CV : covereds p = true.
  Hypothesis WT : forall d x, In d (waitss p) -> In x (evars d) -> ~ In x deps0.
  Notation prog := (body unit p).

  Lemma legal_closed : Legal deps0 closed p.
  Proof. constructor; auto. Qed.

  Theorem stop_source n s0 s : runs m closed closed n s0 = Some (s, 0) -> exists L, nxs prog L (prog, KStop, s0) = Some ([], KStop, s).
  Proof.
    intros H. destruct (follow fuel unit deps0 p m closed closed CP legal_closed n s0) as [D [i [cf [R1 [R2 [R3 _]]]]]]. rewrite H in R1. injection R1 as <- <-.
    destruct (reach_nx prog n _ _ R2) as [L1 E1]. destruct (over_nx prog cf s (R3 eq_refl)) as [L2 E2].
    pose proof (nxs_join prog _ _ _ _ _ E1 E2) as E. unfold ers in E. cbn [er fst snd] in E. destruct (L1 + L2) as [|L]; [discriminate|]. exists L. exact E.
  Qed.
  Theorem source_stop L s0 s : nxs prog L (prog, KStop, s0) = Some ([], KStop, s) -> forall n, 2 * L + 3 <= n -> runs m closed closed n s0 = Some (s, 0).
  Proof.
    intros H n Hn. destruct (follow fuel unit deps0 p m closed closed CP legal_closed n s0) as [D [i [cf [R1 [R2 [R3 R4]]]]]].
    assert (HS : nxs prog (S L) (SStep :: prog, KStop, s0) = Some ([], KStop, s)) by (cbn [nxs]; exact H).
    destruct (Nat.eq_dec i 0) as [ ->|Ni].
    - destruct (stop_source n s0 D R1) as [L2 E2]. destruct (nxs_det prog _ _ _ _ _ H eq_refl E2) as [_ X]. destruct (stop_nx prog ([], KStop, D) _ _ eq_refl X) as [_ Y].
      rewrite R1. congruence.
    - destruct (R4 Ni) as [cf' [T N]]. destruct (reach_progress prog n prog s0 (cf, D) R2) as [L2 [E1 E2]]; [now exists cf'|exact N|].
      destruct (nxs_det prog _ _ _ _ _ HS eq_refl E1) as [X _]. assert (phi (fst (cf, D)) <= 1) by (destruct cf; cbn; lia). lia.
  Qed.
  Theorem never_stuck n s0 : runs m closed closed n s0 <> None.
  Proof. destruct (follow fuel unit deps0 p m closed closed CP legal_closed n s0) as [D [i [cf [R1 _]]]]. rewrite R1. discriminate. Qed.
End Closed.

(** * Ordinary execution and small steps *)
Section Ordinary.
  Variable ret : bool.
  Variable prog : list stmt.
  Notation steps a b := (exists n, nxs prog n a = Some b).
  Lemma steps_trans a b c : steps a b -> steps b c -> steps a c.
  Proof. intros [n H1] [m H2]. exists (n + m). eapply nxs_join; eassumption. Qed.
  Lemma steps_one a b : nx prog a = Some b -> steps a b.
  Proof. intros H. exists 1. cbn. now rewrite H. Qed.
  Lemma steps_step a b c : nx prog a = Some b -> steps b c -> steps a c.
  Proof. intros H. apply steps_trans. now apply steps_one. Qed.

  Definition to1 (x : stmt) (s : store) (o : outcome) (s' : store) : Prop :=
    forall r k, match o with Normal => steps (x :: r, k, s) (r, k, s') | Broke => forall r' k', brkk k = Some (r', k') -> steps (x :: r, k, s) (r', k', s') end.
  Definition tol (l : list stmt) (s : store) (o : outcome) (s' : store) : Prop :=
    forall k, match o with Normal => steps (l, k, s) ([], k, s') | Broke => forall r' k', brkk k = Some (r', k') -> steps (l, k, s) (r', k', s') end.
  Lemma in_seq x l s o s' : (forall r k, exists j, nx prog (x :: r, k, s) = Some (l, KSeq j r k, s)) -> tol l s o s' -> to1 x s o s'.
  Proof.
    intros H T r k. destruct (H r k) as [j E]. specialize (T (KSeq j r k)). destruct o.
    - eapply steps_step; [exact E|]. eapply steps_trans; [exact T|]. now apply steps_one.
    - intros r' k' B. eapply steps_step; [exact E|]. now apply T.
  Qed.
  Lemma big_small : (forall x s o s', exec1 ret x s o s' -> to1 x s o s') /\ (forall l s o s', exec ret l s o s' -> tol l s o s').
  Proof.
    apply exec_mutind.
    - intros x e s r k. now apply steps_one.
    - intros l s o s' _ H. eapply in_seq; [|exact H]. intros r k. now exists false.
    - intros e l s o s' _ H. eapply in_seq; [|exact H]. intros r k. eexists. reflexivity.
    - intros e l1 l2 s o s' _ H. eapply in_seq; [|exact H]. intros r k. eexists. reflexivity.
    - intros e cs s o s' _ H. eapply in_seq; [|exact H]. intros r k. eexists. reflexivity.
    - intros e b s E r k. apply steps_one. cbn. now rewrite E.
    - intros e b s s1 s2 E _ H1 _ H2 r k. eapply steps_step; [cbn; rewrite E; reflexivity|]. eapply steps_trans; [apply (H1 (KLoop e b r k))|]. eapply steps_step; [reflexivity|]. apply H2.
    - intros e b s s1 E _ H r k. eapply steps_step; [cbn; rewrite E; reflexivity|]. now apply (H (KLoop e b r k)).
    - intros s r k r' k' B. apply steps_one. cbn. now rewrite B.
    - intros s r k. now apply steps_one.
    - intros n s r k. now apply steps_one.
    - intros s _ r k. now apply steps_one.
    - intros s k. now exists 0.
    - intros x r s s1 o s2 _ H1 _ H2 k. specialize (H1 r k). specialize (H2 k). cbn in H1. destruct o; [eapply steps_trans; eassumption|].
      intros r' k' B. eapply steps_trans; [exact H1|now apply H2].
    - intros x r s s1 _ H k r' k' B. now apply (H r k).
  Qed.

  (** Conversely. *)
  Definition fin (n : nat) (c : sconf) (s' : store) : Prop := nxs prog n c = Some ([], KStop, s').
  Lemma fin_step n c c' s' : nx prog c = Some c' -> fin n c s' -> (n = 0 /\ c = ([], KStop, s')) \/ exists m, n = S m /\ fin m c' s'.
  Proof. unfold fin. intros E H. destruct n as [|n]; cbn in H; [left; split; congruence|]. rewrite E in H. right. now exists n. Qed.

  Definition back1 (n : nat) : Prop := forall x r k s s', structured ret x = true -> fin n (x :: r, k, s) s' ->
    (exists s1 m, m < n /\ exec1 ret x s Normal s1 /\ fin m (r, k, s1) s') \/
    (exists s1 m r' k', m < n /\ exec1 ret x s Broke s1 /\ brkk k = Some (r', k') /\ fin m (r', k', s1) s').
  Definition backl (n : nat) : Prop := forall l k s s', structureds ret l = true -> fin n (l, k, s) s' ->
    (exists s1 m, m <= n /\ exec ret l s Normal s1 /\ fin m ([], k, s1) s') \/
    (exists s1 m r' k', m < n /\ exec ret l s Broke s1 /\ brkk k = Some (r', k') /\ fin m (r', k', s1) s').
  Lemma back_list n : (forall m, m <= n -> back1 m) -> backl n.
  Proof.
    intros H1 l. revert n H1. induction l as [|x r IH]; intros n H1 k s s' St F.
    - left. exists s, n. split; [lia|]. split; [constructor|exact F].
    - unfold structureds in St. cbn in St. apply andb_true_iff in St. destruct St as [S1 S2].
      destruct (H1 n (le_n n) x r k s s' S1 F) as [[s1 [m [Lm [E1 F1]]]]|[s1 [m [r' [k' [Lm [E1 [B F1]]]]]]]].
      + destruct (IH m ltac:(intros q Hq; apply H1; lia) k s1 s' S2 F1) as [[s2 [m2 [L2 [E2 F2]]]]|[s2 [m2 [r' [k' [L2 [E2 [B F2]]]]]]]].
        * left. exists s2, m2. split; [lia|]. split; [econstructor; eassumption|exact F2].
        * right. exists s2, m2, r', k'. split; [lia|]. split; [econstructor; eassumption|auto].
      + right. exists s1, m, r', k'. split; [lia|]. split; [now apply x_broke|auto].
  Qed.
  Lemma back_seq n l j r k s s' : backl n -> structureds ret l = true -> fin n (l, KSeq j r k, s) s' ->
    (exists s1 m, m < n /\ exec ret l s Normal s1 /\ fin m (r, k, s1) s') \/
    (exists s1 m r' k', m < n /\ exec ret l s Broke s1 /\ brkk k = Some (r', k') /\ fin m (r', k', s1) s').
  Proof.
    intros B St F. destruct (B l (KSeq j r k) s s' St F) as [[s1 [m [Lm [E1 F1]]]]|[s1 [m [r' [k' [Lm [E1 [B1 F1]]]]]]]].
    - left. destruct m as [|m]; [discriminate|]. exists s1, m. split; [lia|]. split; [exact E1|exact F1].
    - right. exists s1, m, r', k'. auto.
  Qed.
  Lemma back_all : forall n, back1 n.
  Proof.
    induction n as [n IH] using lt_wf_ind. intros x r k s s' St F.
    assert (BL : forall m, m < n -> backl m) by (intros m Hm; apply back_list; intros q Hq; apply IH; lia).
    assert (SQ : forall l, structureds ret l = true -> (exists j, nx prog (x :: r, k, s) = Some (l, KSeq j r k, s)) -> (forall o s1, exec ret l s o s1 -> exec1 ret x s o s1) ->
      (exists s1 m, m < n /\ exec1 ret x s Normal s1 /\ fin m (r, k, s1) s') \/
      (exists s1 m r' k', m < n /\ exec1 ret x s Broke s1 /\ brkk k = Some (r', k') /\ fin m (r', k', s1) s')).
    { intros l Sl [j E] X. destruct (fin_step _ _ _ _ E F) as [[_ D]|[m [ -> F1]]]; [discriminate|].
      destruct (back_seq m l j r k s s' (BL m ltac:(lia)) Sl F1) as [[s1 [m1 [L1 [E1 F2]]]]|[s1 [m1 [r' [k' [L1 [E1 [B1 F2]]]]]]]].
      - left. exists s1, m1. split; [lia|]. auto.
      - right. exists s1, m1, r', k'. split; [lia|]. auto. }
    destruct x; cbn in St; try discriminate.
    - destruct (fin_step n (SAssign x e :: r, k, s) (r, k, upd s x (eval s e)) s' eq_refl F) as [[_ D]|[m [ -> F1]]]; [discriminate|]. left. exists (upd s x (eval s e)), m. split; [lia|]. split; [constructor|exact F1].
    - apply (SQ l St); [eexists; reflexivity|]. intros; now constructor.
    - apply (SQ (if truth (eval s e) then l else [])); [now destruct (truth (eval s e))|eexists; reflexivity|]. intros; now constructor.
    - apply andb_true_iff in St. apply (SQ (if truth (eval s e) then l1 else l2)); [now destruct (truth (eval s e))|eexists; reflexivity|]. intros; now constructor.
    - apply (SQ (match pick (eval s e) cases with Some l => l | None => [] end)); [|eexists; reflexivity|intros; now constructor].
      destruct (pick (eval s e) cases) as [l|] eqn:P; [|reflexivity]. apply pick_in in P. apply in_map_iff in P. destruct P as [c [E P]]. rewrite forallb_forall in St. specialize (St _ P). now rewrite E in St.
    - destruct (truth (eval s e)) eqn:Tr.
      + destruct (fin_step n (SWhile e l :: r, k, s) (l, KLoop e l r k, s) s') as [[_ D]|[m [ -> F1]]]; [cbn; now rewrite Tr|exact F|discriminate|].
        destruct (BL m ltac:(lia) l (KLoop e l r k) s s' St F1) as [[s1 [m1 [L1 [E1 F2]]]]|[s1 [m1 [r' [k' [L1 [E1 [B1 F2]]]]]]]].
        * destruct m1 as [|m1]; [discriminate|]. change (fin m1 (SWhile e l :: r, k, s1) s') in F2.
          destruct (IH m1 ltac:(lia) (SWhile e l) r k s1 s' St F2) as [[s2 [m2 [L2 [E2 F3]]]]|[s2 [m2 [r' [k' [L2 [E2 [B1 F3]]]]]]]]; [|inversion E2].
          left. exists s2, m2. split; [lia|]. split; [eapply x_while_next; eassumption|exact F3].
        * injection B1 as <- <-. left. exists s1, m1. split; [lia|]. split; [now apply x_while_break|exact F2].
      + destruct (fin_step n (SWhile e l :: r, k, s) (r, k, s) s') as [[_ D]|[m [ -> F1]]]; [cbn; now rewrite Tr|exact F|discriminate|].
        left. exists s, m. split; [lia|]. split; [now apply x_while_end|exact F1].
    - destruct (brkk k) as [[r' k']|] eqn:B; [|destruct n; unfold fin in F; cbn in F; [discriminate|rewrite B in F; discriminate]].
      destruct (fin_step n (SBreak :: r, k, s) (r', k', s) s') as [[_ D]|[m [ -> F1]]]; [cbn; now rewrite B|exact F|discriminate|].
      right. exists s, m, r', k'. split; [lia|]. split; [constructor|auto].
    - destruct (fin_step n (SStep :: r, k, s) (r, k, s) s' eq_refl F) as [[_ D]|[m [ -> F1]]]; [discriminate|]. left. exists s, m. split; [lia|]. split; [constructor|exact F1].
    - destruct (fin_step n (SLabel n0 :: r, k, s) (r, k, s) s' eq_refl F) as [[_ D]|[m [ -> F1]]]; [discriminate|]. left. exists s, m. split; [lia|]. split; [constructor|exact F1].
    - destruct (fin_step n (SReturn :: r, k, s) (r, k, s) s' eq_refl F) as [[_ D]|[m [ -> F1]]]; [discriminate|]. left. exists s, m. split; [lia|]. split; [now constructor|exact F1].
  Qed.

  Theorem ordinary l s s' : structureds ret l = true -> (exec ret l s Normal s' <-> exists n, nxs prog n (l, KStop, s) = Some ([], KStop, s')).
  Proof.
    intros St. split.
    - intros H. destruct big_small as [_ B]. exact (B _ _ _ _ H KStop).
    - intros [n F]. destruct (back_list n (fun m _ => back_all m) l KStop s s' St F) as [[s1 [m [_ [E1 F1]]]]|[s1 [m [r' [k' [_ [_ [B _]]]]]]]]; [|discriminate].
      unfold fin in F1. destruct (stop_nx prog ([], KStop, s1) _ _ eq_refl F1) as [_ X]. congruence.
  Qed.
End Ordinary.

(** Structured programs have no jump and no wait. *)
Lemma structured_gotos ret st : structured ret st = true -> gotos st = [] /\ waits st = [].
Proof.
  assert (L : forall l, Forall (fun st => structured ret st = true -> gotos st = [] /\ waits st = []) l -> forallb (structured ret) l = true -> flat_map gotos l = [] /\ flat_map waits l = []).
  { intros l F. induction F as [|x l H F IH]; cbn; [auto|]. intros E. apply andb_true_iff in E. destruct E as [E1 E2]. destruct (H E1) as [ -> ->]. destruct (IH E2) as [ -> ->]. auto. }
  induction st using stmt_ind'; cbn [structured gotos waits]; intros E; try discriminate; auto.
  - apply andb_true_iff in E. destruct E as [E1 E2]. destruct (L _ H E1) as [ -> ->]. destruct (L _ H0 E2) as [ -> ->]. auto.
  - induction H as [|c cs H F IH]; cbn in *; [auto|]. apply andb_true_iff in E. destruct E as [E1 E2]. destruct (L _ H E1) as [ -> ->]. destruct (IH E2) as [ -> ->]. auto.
Qed.
Lemma structureds_gotos ret l : structureds ret l = true -> gotoss l = [] /\ waitss l = [].
Proof.
  induction l as [|x l IH]; cbn; [auto|]. intros E. apply andb_true_iff in E. destruct E as [E1 E2]. destruct (structured_gotos ret x E1) as [X1 X2]. destruct (IH E2) as [Y1 Y2].
  unfold gotoss, waitss in *. cbn. now rewrite X1, X2, Y1, Y2.
Qed.
Lemma nojumps_nil l : nojumps [] l = true.
Proof.
  assert (Q : forall l, quietl [] l = true) by (intros l0; unfold quietl; apply orb_true_iff; right; apply forallb_forall; reflexivity).
  assert (A : forall st, nojump [] st = true).
  { assert (FA : forall l, Forall (fun st => nojump [] st = true) l -> forallb (nojump []) l = true) by (intros l0 H; apply forallb_forall; now apply Forall_forall).
    induction st using stmt_ind'; cbn [nojump]; try reflexivity; try (now apply FA).
    - rewrite Q. now apply FA.
    - rewrite !Q. cbn. rewrite !FA; auto.
    - apply andb_true_iff. split; [apply orb_true_iff; right; apply forallb_forall; intros c _; apply Q|]. apply forallb_forall. intros c Hc. apply FA. rewrite Forall_forall in H. now apply H. }
  apply forallb_forall. intros x _. apply A.
Qed.

(** The machine of a structured program terminates exactly when the program does, with the same values. *)
Theorem machine_exec ret fuel unit deps0 p m s s' : compile fuel unit deps0 p = Some m -> structureds ret p = true -> covereds p = true ->
  (exec ret p s Normal s' <-> exists n, runs m closed closed n s = Some (s', 0)) /\
  (exec ret p s Normal s' -> exists n0, forall n, n0 <= n -> runs m closed closed n s = Some (s', 0)).
Proof.
  intros CP St CV. destruct (structureds_gotos ret p St) as [G W].
  assert (NJ : nojumps (gotoss p) p = true) by (rewrite G; apply nojumps_nil).
  assert (WT : forall d x, In d (waitss p) -> In x (evars d) -> ~ In x deps0) by (intros d x H; rewrite W in H; destruct H).
  assert (SB : structureds ret (body unit p) = true) by (unfold body, structureds in *; destruct unit; cbn; [now rewrite St|exact St]).
  assert (EB : exec ret (body unit p) s Normal s' <-> exec ret p s Normal s').
  { unfold body. destruct unit; [|tauto]. split; intros H.
    - inversion H as [|x r a b o c H1 H2|]; subst. inversion H2; subst. inversion H1; subst. assumption.
    - econstructor; [constructor; exact H|constructor]. }
  assert (A : exec ret p s Normal s' -> exists n0, forall n, n0 <= n -> runs m closed closed n s = Some (s', 0)).
  { intros H. apply EB in H. apply (ordinary ret (body unit p) _ _ _ SB) in H. destruct H as [L H]. exists (2 * L + 3). intros n Hn. eapply source_stop; eassumption. }
  split; [|exact A]. split.
  - intros H. destruct (A H) as [n0 H0]. exists n0. apply H0. lia.
  - intros [n H]. apply EB. apply (ordinary ret (body unit p) _ _ _ SB). eapply stop_source; eassumption.
Qed.
