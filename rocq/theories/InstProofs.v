(** An algorithm calling another one: the modules do what the procedure call does. *)
From Coq Require Import List Bool Arith ZArith Lia.
Import ListNotations.
From Verif Require Import FsmModel FsmEmit FsmLayout FsmRegion FsmStates FsmArms FsmSource FsmRun FsmBig FsmStep RegModel RegProps InstModel.

(** * Stores *)
Lemma set1_at s x v y : set1 s x v y = upd s x v y.
Proof. unfold set1. destruct (Z.eqb_spec (s x) v) as [E|E]; [|reflexivity]. unfold upd. destruct (Nat.eqb_spec y x) as [ ->|]; [exact E|reflexivity]. Qed.
Lemma set1_same s x v : s x = v -> set1 s x v = s.
Proof. intros E. unfold set1. now rewrite E, Z.eqb_refl. Qed.
Lemma wire_cons p l src dst : wire (p :: l) src dst = wire l src (set1 dst (fst p) (src (snd p))).
Proof. reflexivity. Qed.
Lemma wire_other l src : forall dst x, ~ In x (map fst l) -> wire l src dst x = dst x.
Proof.
  induction l as [|p l IH]; intros dst x H; [reflexivity|]. rewrite wire_cons, IH by (intros K; apply H; now right).
  rewrite set1_at. apply upd_ne. intros ->. apply H. now left.
Qed.
Lemma wire_cong l src src' : (forall b, In b (map snd l) -> src b = src' b) -> forall dst dst', (forall x, ~ In x (map fst l) -> dst x = dst' x) ->
  forall x, wire l src dst x = wire l src' dst' x.
Proof.
  (* the values written are the same, and what is not written is the same *)
  induction l as [|p l IH]; intros S dst dst' H x; [now apply H|]. rewrite !wire_cons.
  destruct (in_dec Nat.eq_dec x (map fst l)) as [I|N].
  - apply IH; [intros b Hb; apply S; now right|]. intros y Hy. rewrite !set1_at. unfold upd. destruct (Nat.eqb_spec y (fst p)); [apply S; now left|].
    apply H. intros [E|K]; [congruence|contradiction].
  - rewrite !wire_other by exact N. rewrite !set1_at. unfold upd. destruct (Nat.eqb_spec x (fst p)); [apply S; now left|]. apply H. intros [E|K]; [congruence|contradiction].
Qed.
Lemma wire_id l src : forall dst, (forall p, In p l -> dst (fst p) = src (snd p)) -> wire l src dst = dst.
Proof. induction l as [|p l IH]; intros dst H; [reflexivity|]. rewrite wire_cons, set1_same by (apply H; now left). apply IH. intros q Hq. apply H. now right. Qed.

(** * Execution does not depend on more than the values *)
Definition eqs (s t : store) : Prop := forall x, s x = t x.
Lemma eqs_upd s t x e : eqs s t -> eqs (upd s x (eval s e)) (upd t x (eval t e)).
Proof. intros H y. unfold upd. destruct (Nat.eqb y x); [|apply H]. apply eval_agree. intros; apply H. Qed.
Lemma eqs_eval s t e : eqs s t -> eval s e = eval t e.
Proof. intros H. apply eval_agree. intros; apply H. Qed.
Lemma exec_ext ret :
  (forall x s o s', exec1 ret x s o s' -> forall t, eqs s t -> exists t', exec1 ret x t o t' /\ eqs s' t') /\
  (forall l s o s', exec ret l s o s' -> forall t, eqs s t -> exists t', exec ret l t o t' /\ eqs s' t').
Proof.
  apply exec_mutind.
  - intros x e s t H. eexists. split; [constructor|]. now apply eqs_upd.
  - intros l s o s' _ IH t H. destruct (IH t H) as [t' [E1 E2]]. exists t'. split; [now constructor|exact E2].
  - intros e l s o s' _ IH t H. destruct (IH t H) as [t' [E1 E2]]. exists t'. split; [|exact E2]. constructor. now rewrite <- (eqs_eval s t e H).
  - intros e l1 l2 s o s' _ IH t H. destruct (IH t H) as [t' [E1 E2]]. exists t'. split; [|exact E2]. constructor. now rewrite <- (eqs_eval s t e H).
  - intros e cs s o s' _ IH t H. destruct (IH t H) as [t' [E1 E2]]. exists t'. split; [|exact E2]. constructor. now rewrite <- (eqs_eval s t e H).
  - intros e b s T t H. exists t. split; [|exact H]. constructor. now rewrite <- (eqs_eval s t e H).
  - intros e b s s1 s2 T _ IH1 _ IH2 t H. destruct (IH1 t H) as [t1 [E1 H1]]. destruct (IH2 t1 H1) as [t2 [E2 H2]]. exists t2. split; [|exact H2].
    eapply x_while_next; [now rewrite <- (eqs_eval s t e H)|exact E1|exact E2].
  - intros e b s s1 T _ IH t H. destruct (IH t H) as [t1 [E1 H1]]. exists t1. split; [|exact H1]. apply x_while_break; [now rewrite <- (eqs_eval s t e H)|exact E1].
  - intros s t H. exists t. split; [constructor|exact H].
  - intros s t H. exists t. split; [constructor|exact H].
  - intros n s t H. exists t. split; [constructor|exact H].
  - intros s R t H. exists t. split; [now constructor|exact H].
  - intros s t H. exists t. split; [constructor|exact H].
  - intros x r s s1 o s2 _ IH1 _ IH2 t H. destruct (IH1 t H) as [t1 [E1 H1]]. destruct (IH2 t1 H1) as [t2 [E2 H2]]. exists t2. split; [econstructor; eassumption|exact H2].
  - intros x r s s1 _ IH t H. destruct (IH t H) as [t1 [E1 H1]]. exists t1. split; [now apply x_broke|exact H1].
Qed.

(** * Predicates on all the statements of a program *)
Section Every.
  Variable P : stmt -> bool.
  Notation evs l := (forallb (every P) l = true).
  Fixpoint everyk (k : kont) : Prop :=
    match k with
    | KStop => True
    | KSeq _ r k => evs r /\ everyk k
    | KLoop e b r k => every P (SWhile e b) = true /\ evs r /\ everyk k
    end.
  Lemma every_here st : every P st = true -> P st = true.
  Proof. destruct st; cbn [every]; rewrite andb_true_iff; tauto. Qed.
  Lemma everyk_brk k r' k' : everyk k -> brkk k = Some (r', k') -> evs r' /\ everyk k'.
  Proof. induction k as [|j r k IH|e b r k IH]; cbn; intros H B; [discriminate|apply IH; tauto|]. injection B as <- <-. tauto. Qed.
  Lemma every_pick v cs l : forallb (fun c => forallb (every P) (snd c)) cs = true -> pick v cs = Some l -> evs l.
  Proof.
    intros H E. apply pick_in in E. apply in_map_iff in E. destruct E as [c [E I]]. rewrite forallb_forall in H. specialize (H c I). cbn beta in H. now rewrite E in H.
  Qed.
  Hypothesis NG : forall n, P (SGoto n) = false.
  Lemma every_nx prog l k s l' k' s' : (match l with SJoin _ _ :: _ => False | _ => True end) -> nx prog (l, k, s) = Some (l', k', s') ->
    evs l -> everyk k -> evs l' /\ everyk k'.
  Proof.
    intros NJ N H1 H2. destruct l as [|st r].
    - destruct k as [|j r k|e b r k]; cbn in N; [discriminate| |]; injection N as <- <- <-; cbn [everyk] in H2; [tauto|]. destruct H2 as [A [B C]]. split; [cbn [forallb]; now rewrite A, B|exact C].
    - cbn [forallb] in H1. apply andb_true_iff in H1. destruct H1 as [H0 H1]. pose proof (every_here _ H0) as HP.
      destruct st; cbn -[timeless assigns app] in N; try contradiction.
      + injection N as <- <- <-. auto.
      + injection N as <- <- <-. cbn in H0. apply andb_true_iff in H0. cbn. tauto.
      + injection N as <- <- <-. cbn in H0. apply andb_true_iff in H0. split; [destruct (truth _); [tauto|reflexivity]|cbn; tauto].
      + injection N as <- <- <-. cbn in H0. rewrite !andb_true_iff in H0. split; [destruct (truth _); tauto|cbn; tauto].
      + injection N as <- <- <-. cbn in H0. rewrite !andb_true_iff in H0. split; [|cbn; tauto].
        destruct (pick (eval s e) cases) as [l0|] eqn:E; [|reflexivity]. eapply every_pick; [apply H0|exact E].
      + destruct (truth (eval s e)); injection N as <- <- <-; [|tauto]. split; [cbn in H0; rewrite !andb_true_iff in H0; tauto|]. cbn [everyk]. tauto.
      + destruct (brkk k) as [[r' k2]|] eqn:B; [|discriminate]. injection N as <- <- <-. eapply everyk_brk; eassumption.
      + injection N as <- <- <-. auto.
      + injection N as <- <- <-. auto.
      + rewrite NG in HP. discriminate.
      + injection N as <- <- <-. auto.
  Qed.
End Every.

Lemma every_structured (P : stmt -> bool) : (forall n, P (SGoto n) = false) -> P SReturn = false -> (forall d r, P (SJoin d r) = false) ->
  forall st, every P st = true -> structured false st = true.
Proof.
  intros G R J. assert (L : forall l, Forall (fun st => every P st = true -> structured false st = true) l -> forallb (every P) l = true -> forallb (structured false) l = true).
  { intros l F. rewrite !forallb_forall. rewrite Forall_forall in F. auto. }
  induction st using stmt_ind'; intros E; pose proof (every_here _ _ E) as HP; cbn [structured]; try reflexivity; cbn [every] in E; rewrite ?andb_true_iff in E.
  - apply L; tauto.
  - apply L; tauto.
  - rewrite !L; tauto.
  - apply forallb_forall. intros c Hc. rewrite Forall_forall in H. apply L; [now apply H|]. destruct E as [_ E]. rewrite forallb_forall in E. now apply E.
  - apply L; tauto.
  - congruence.
  - congruence.
  - congruence.
Qed.

Lemma nx_store prog l k s l' k' s' : nx prog (l, k, s) = Some (l', k', s') -> s' = s \/ exists x e r, l = SAssign x e :: r /\ s' = upd s x (eval s e).
Proof.
  destruct l as [|st r]; [destruct k; cbn; intros H; try discriminate; injection H as <- <- <-; auto|].
  destruct st; cbn -[timeless assigns app]; intros H; try (injection H as <- <- <-; auto; fail).
  - injection H as <- <- <-. right. eauto.
  - destruct (truth (eval s e)); injection H as <- <- <-; auto.
  - destruct (brkk k) as [[? ?]|]; [|discriminate]. injection H as <- <- <-; auto.
  - destruct (find n prog KStop) as [[? ?]|]; [|discriminate]. injection H as <- <- <-; auto.
  - destruct (truth (eval s d)); injection H as <- <- <-; auto.
Qed.

(** * The callee *)
Section Callee.
  Variables (w : inst) (fuel : nat) (unit : bool) (pk : list stmt) (mk : fsm).
  Hypothesis CP : compile fuel unit [] pk = Some mk.
  Hypothesis OK : forallb (every (callee_ok w)) pk = true.
  Hypothesis CV : covereds pk = true.

  Lemma callee_structured : structureds false pk = true.
  Proof.
    unfold structureds. rewrite forallb_forall in *. intros st Hst. apply (every_structured (callee_ok w)); [reflexivity|reflexivity|reflexivity|now apply OK].
  Qed.
  Lemma callee_jumps : nojumps (gotoss pk) pk = true.
  Proof. destruct (structureds_gotos _ _ callee_structured) as [ -> _]. apply nojumps_nil. Qed.
  Lemma callee_runs n s0 : exists D i, runs mk closed closed n s0 = Some (D, i).
  Proof.
    destruct (runs mk closed closed n s0) as [[D i]|] eqn:E; [eauto|]. exfalso. revert E. eapply never_stuck; [exact CP|exact callee_jumps|exact CV|].
    intros d x H. destruct (structureds_gotos _ _ callee_structured) as [_ W]. rewrite W in H. destruct H.
  Qed.

  (** The inputs are not modified. *)
  Definition cfg_ok (c : config) : Prop := forallb (every (callee_ok w)) (fst (er c)) = true /\ everyk (callee_ok w) (snd (er c)).
  Notation prog := (body unit pk).
  Lemma silent_keeps c D c' D' : silent prog (c, D) (c', D') -> cfg_ok c -> cfg_ok c' /\ forall x, In x (map fst (i_ins w)) -> D' x = D x.
  Proof.
    intros S [O1 O2]. unfold cfg_ok. destruct (silent_nx _ _ _ S) as [E|[E _]]; unfold ers in E; cbn [fst snd] in E; destruct (er c) as [l k], (er c') as [l' k']; cbn [fst snd] in *.
    - split.
      + eapply every_nx; [reflexivity| |exact E|exact O1|exact O2]. destruct l as [|[] l]; auto. cbn in O1. discriminate.
      + intros x Hx. destruct (nx_store _ _ _ _ _ _ _ E) as [ ->|[y [e [r [ -> ->]]]]]; [reflexivity|]. apply upd_ne. intros ->.
        cbn [forallb] in O1. apply andb_true_iff in O1. destruct O1 as [O1 _]. apply every_here in O1. cbn in O1. apply negb_true_iff in O1.
        apply memb_in in Hx. congruence.
    - injection E as <- <- <-. auto.
  Qed.
  Lemma silents_keeps a b : silents prog a b -> cfg_ok (fst a) -> cfg_ok (fst b) /\ forall x, In x (map fst (i_ins w)) -> snd b x = snd a x.
  Proof.
    induction 1 as [a|[c D] [c' D'] b S _ IH]; intros O; [auto|]. destruct (silent_keeps _ _ _ _ S O) as [O1 K1]. destruct (IH O1) as [O2 K2].
    split; [exact O2|]. intros x Hx. cbn [snd] in *. rewrite K2 by exact Hx. now apply K1.
  Qed.
  Lemma callee_keeps k0 : forall j D i, runs mk closed closed j k0 = Some (D, i) -> forall x, In x (map fst (i_ins w)) -> D x = k0 x.
  Proof.
    destruct (follow_step _ _ _ _ _ CP callee_jumps CV) as [I F].
    assert (H : forall j D i, runs mk closed closed j k0 = Some (D, i) -> (i = 0 \/ exists c, I i c /\ cfg_ok c) /\ forall x, In x (map fst (i_ins w)) -> D x = k0 x); [|intros; eapply H; eauto].
    induction j as [|j IH]; intros D i R.
    - cbn in R. injection R as <- <-. split; [|reflexivity]. right. exists (Run (SStep :: prog) KStop). split; [apply (fo_entry _ _ _ _ _ F)|]. split; [|exact Logic.I].
      cbn [er fst forallb]. unfold body. destruct unit; cbn [forallb every andb]; [now rewrite OK|exact OK].
    - cbn [runs] in R. unfold obind in R. destruct (runs mk closed closed j k0) as [[D1 i1]|]; [|discriminate]. destruct (IH D1 i1 eq_refl) as [[ ->|[c [C1 C2]]] K].
      + cbn in R. injection R as <- <-. split; [now left|exact K].
      + destruct (Nat.eq_dec i1 0) as [ ->|N]; [cbn in R; injection R as <- <-; split; [now left|exact K]|].
        destruct (fo_cycle _ _ _ _ _ F i1 c (closed j D1) (closed j (closed j D1)) C1 N) as [D2 [i2 [c1 [c2 [E1 [E2 [E3 E4]]]]]]]; [intros y _; reflexivity|intros d y _ _ []|].
        rewrite E1 in R. injection R as -> ->.
        assert (O1 : cfg_ok c1).
        { clear - C2 E2. unfold cfg_ok in *. destruct E2; exact C2. }
        destruct (silents_keeps _ _ E3 O1) as [O2 K2]. cbn [fst snd] in *. split; [right; exists c2; auto|]. intros x Hx. rewrite K2 by exact Hx. now apply K.
  Qed.
End Callee.
