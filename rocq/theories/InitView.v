(** Declarations: the order of the initial values does not matter, the numbering of the states is the one of the program with assignments. *)
From Coq Require Import List Bool Arith ZArith Lia.
Import ListNotations.
From Verif Require Import FsmModel FsmEmit FsmLayout FsmGather FsmBody FsmRenum FsmRegion FsmJoin FsmStates FsmArms FsmRun InitModel InitRuns.

(** * Conditions on the runs of a program *)
Definition mention (i : instr) : list var := match i with IAssign x e => x :: evars e | IReturn => [] end.
Definition target (i : instr) : list var := match i with IAssign x _ => [x] | IReturn => [] end.

Section Cond.
  Variable kind : instr -> ikind.
  (** Declarations with a value are assignments of constants. *)
  Definition constants : Prop := forall i, kind i = KInit -> exists x e, i = IAssign x e /\ evars e = [].
  (** The variable of a declaration does not appear before it in its run. *)
  Fixpoint ordered (l : list instr) : bool :=
    match l with
    | [] => true
    | a :: r => forallb (fun j => negb (is_init kind j) || forallb (fun x => negb (memb x (mention a))) (target j)) r && ordered r
    end.
  Definition only_expr (l : list instr) : bool := match l with [] => false | _ => forallb (is_expr kind) l end.
  (** A run holding a declaration with a value does not start where a state may be skipped; a run made only of declarations with expressions is the first one, or
      starts with [++:] and is not the last one. *)
  Definition okrun (final : bool) (c : run_of) : bool :=
    ordered (snd c) &&
    (negb (existsb (is_init kind) (snd c)) || match fst c with SOther => false | _ => true end) &&
    (negb (only_expr (snd c)) || match fst c with STop => true | SHard => negb final | _ => false end).
  Definition settled (unit : bool) (p : list stmt) : bool :=
    forallb (okrun false) (ended (STop, []) (body unit p)) && okrun true (lastrun (STop, []) (body unit p)).
  (** The declarations of the first run. *)
  Definition first_run (unit : bool) (p : list stmt) : list instr := snd (hd (STop, []) (ended (STop, []) (body unit p) ++ [lastrun (STop, []) (body unit p)])).
End Cond.

(** * Stores holding the same values *)
Definition eqs (a b : store) : Prop := forall x, a x = b x.
Lemma eqs_refl a : eqs a a.
Proof. intros x. reflexivity. Qed.
Lemma eqs_sym a b : eqs a b -> eqs b a.
Proof. intros H x. now rewrite H. Qed.
Lemma eqs_trans a b c : eqs a b -> eqs b c -> eqs a c.
Proof. intros H1 H2 x. now rewrite H1. Qed.
Lemma eqs_upd a b x v : eqs a b -> eqs (upd a x v) (upd b x v).
Proof. intros H y. unfold upd. now rewrite H. Qed.
Lemma eqs_eval a b e : eqs a b -> eval a e = eval b e.
Proof. intros H. apply eval_agree. intros x _. apply H. Qed.

Definition eqp (a b : store * nat) : Prop := eqs (fst a) (fst b) /\ snd a = snd b.
Lemma eqp_trans a b c : eqp a b -> eqp b c -> eqp a c.
Proof. intros [H1 H2] [H3 H4]. split; [eapply eqs_trans; eassumption|congruence]. Qed.
Lemma exec_ins_eqp l : forall a b, eqp a b -> eqp (exec_ins l a) (exec_ins l b).
Proof.
  induction l as [|[x e|] l IH]; intros a b [H1 H2]; cbn [exec_ins]; [now split| |]; apply IH; split; cbn [fst snd]; try assumption; [|reflexivity].
  rewrite (eqs_eval _ _ e H1). now apply eqs_upd.
Qed.
Lemma exec_ins_app a b s : exec_ins (a ++ b) s = exec_ins b (exec_ins a s).
Proof. revert s. induction a as [|[x e|] a IH]; intros s; cbn [app exec_ins]; auto. Qed.

(** * Moving the declarations first *)
Section Order.
  Variable kind : instr -> ikind.
  Hypothesis CK : constants kind.

  (** A declaration does the same before an instruction that does not mention its variable. *)
  Lemma swap a j s : is_init kind j = true -> forallb (fun x => negb (memb x (mention a))) (target j) = true -> eqp (exec_ins [j; a] s) (exec_ins [a; j] s).
  Proof.
    unfold is_init. destruct (kind j) eqn:K; try discriminate. intros _. destruct (CK j K) as [x [e [ -> E]]]. cbn [target forallb]. rewrite andb_true_r.
    intros M. apply negb_true_iff, memb_notIn in M. destruct a as [y f|]; cbn [mention] in M.
    - cbn [exec_ins]. split; [|reflexivity]. cbn [fst]. assert (N : x <> y) by (intros ->; apply M; now left).
      assert (E1 : forall s', eval s' e = eval (fst s) e) by (intros s'; apply eval_agree; rewrite E; intros ? []).
      assert (E2 : eval (upd (fst s) x (eval (fst s) e)) f = eval (fst s) f).
      { apply eval_agree. intros z Hz. unfold upd. destruct (Nat.eqb_spec z x) as [ ->|]; [|reflexivity]. exfalso. apply M. now right. }
      rewrite E2, (E1 (upd (fst s) y (eval (fst s) f))). intros z. unfold upd. destruct (Nat.eqb_spec z y) as [Zy|]; destruct (Nat.eqb_spec z x) as [Zx|]; try reflexivity. congruence.
    - cbn [exec_ins]. split; [apply eqs_refl|reflexivity].
  Qed.
  Lemma bubble a l : forallb (is_init kind) l = true -> forallb (fun j => negb (is_init kind j) || forallb (fun x => negb (memb x (mention a))) (target j)) l = true ->
    forall s, eqp (exec_ins (l ++ [a]) s) (exec_ins (a :: l) s).
  Proof.
    induction l as [|j l IH]; intros I H s; [split; [apply eqs_refl|reflexivity]|]. cbn [forallb] in I, H. apply andb_true_iff in I, H. destruct I as [I1 I2]. destruct H as [H1 H2].
    rewrite I1 in H1. cbn [negb orb] in H1. change ((j :: l) ++ [a]) with ([j] ++ (l ++ [a])). rewrite exec_ins_app. eapply eqp_trans; [apply (IH I2 H2)|].
    change (a :: l) with ([a] ++ l). change (a :: j :: l) with ([a; j] ++ l). rewrite !exec_ins_app. apply exec_ins_eqp.
    rewrite <- exec_ins_app. cbn [app]. now apply swap.
  Qed.
  Lemma inits_all l : forallb (is_init kind) (inits kind l) = true.
  Proof. unfold inits. apply forallb_forall. intros x H. now apply filter_In in H. Qed.
  Lemma inits_sub (P : instr -> bool) l : forallb P l = true -> forallb P (inits kind l) = true.
  Proof. intros H. apply forallb_forall. intros x I. apply filter_In in I. rewrite forallb_forall in H. now apply H. Qed.

  Lemma hoisted l : ordered kind l = true -> forall s, eqp (exec_ins l s) (exec_ins (inits kind l ++ others kind l) s).
  Proof.
    induction l as [|a l IH]; intros H s; [split; [apply eqs_refl|reflexivity]|]. cbn [ordered] in H. apply andb_true_iff in H. destruct H as [H1 H2].
    unfold inits, others in *. cbn [filter]. destruct (is_init kind a) eqn:Ia; cbn [negb].
    - change (a :: l) with ([a] ++ l). change ((a :: filter (is_init kind) l) ++ filter (fun i => negb (is_init kind i)) l) with
        ([a] ++ (filter (is_init kind) l ++ filter (fun i => negb (is_init kind i)) l)). rewrite !exec_ins_app. rewrite <- (exec_ins_app (filter (is_init kind) l)). apply IH. exact H2.
    - change (a :: l) with ([a] ++ l). rewrite exec_ins_app. eapply eqp_trans; [apply (IH H2)|].
      change (a :: filter (fun i => negb (is_init kind i)) l) with ([a] ++ filter (fun i => negb (is_init kind i)) l).
      rewrite app_assoc. rewrite !(exec_ins_app _ (filter (fun i => negb (is_init kind i)) l)). apply exec_ins_eqp.
      pose proof (bubble a (inits kind l) (inits_all l) (inits_sub _ l H1) s) as [B1 B2].
      change (a :: inits kind l) with ([a] ++ inits kind l) in B1, B2. rewrite (exec_ins_app [a]) in B1, B2. unfold inits in B1, B2. split; [apply eqs_sym; exact B1|symmetry; exact B2].
  Qed.

  (** When the variables hold their initial values the declarations do nothing. *)
  Definition holds (l : list instr) (s : store) : Prop := forall x e, In (IAssign x e) l -> kind (IAssign x e) = KInit -> s x = eval s e.
  Lemma holds_eqs l a b : eqs a b -> holds l a -> holds l b.
  Proof. intros E H x e I K. rewrite <- (E x), <- (eqs_eval _ _ e E). now apply H. Qed.
  Lemma dropped l : ordered kind l = true -> forall s, holds l (fst s) -> eqp (exec_ins l s) (exec_ins (others kind l) s).
  Proof.
    induction l as [|a l IH]; intros H s Hs; [split; [apply eqs_refl|reflexivity]|]. cbn [ordered] in H. apply andb_true_iff in H. destruct H as [H1 H2].
    unfold others in *. cbn [filter]. destruct (is_init kind a) eqn:Ia; cbn [negb].
    - unfold is_init in Ia. destruct (kind a) eqn:K; try discriminate. destruct (CK a K) as [x [e [ -> E]]].
      change (IAssign x e :: l) with ([IAssign x e] ++ l). rewrite exec_ins_app. eapply eqp_trans; [apply exec_ins_eqp|apply IH; [exact H2|]].
      + split; [|reflexivity]. cbn. intros y. unfold upd. destruct (Nat.eqb_spec y x) as [ ->|]; [|reflexivity]. symmetry. apply Hs; [now left|exact K].
      + intros y f I K'. apply Hs; [now right|exact K'].
    - change (a :: l) with ([a] ++ l). change (a :: filter (fun i => negb (is_init kind i)) l) with ([a] ++ filter (fun i => negb (is_init kind i)) l). rewrite !exec_ins_app.
      apply IH; [exact H2|]. intros x e I K.
      assert (M : ~ In x (mention a)).
      { rewrite forallb_forall in H1. specialize (H1 _ I). unfold is_init in H1. rewrite K in H1. cbn in H1. rewrite andb_true_r in H1. now apply negb_true_iff, memb_notIn in H1. }
      destruct (CK _ K) as [x' [e' [[= <- <-] E]]]. destruct a as [y f|]; cbn [exec_ins fst].
      + unfold upd at 1. destruct (Nat.eqb_spec x y) as [ ->|]; [exfalso; apply M; now left|]. rewrite (Hs x e (or_intror I) K). apply eval_agree. rewrite E. intros ? [].
      + apply Hs; [now right|exact K].
  Qed.
End Order.

(** * What is seen of the blocks *)
Section View.
  Variable kind : instr -> ikind.
  Definition seen (gv g : graph) : Prop := forall x, gv x = view kind (g x).

  Section Ff.
    Variables (gv g : graph).
    Hypothesis SE : seen gv g.
    Hypothesis Z : forall x, pos g x.
    Hypothesis F1 : forall x, x <> 0 -> b_noskip (g x) = false -> is_empty kind (g x) = block_empty (g x).
    Hypothesis F2 : forall x, x <> 0 -> existsb (is_init kind) (b_ins (g x)) = true -> b_noskip (g x) = true \/ b_state (g x) = false.

    Lemma seen_state x : b_state (gv x) = b_state (g x).
    Proof. now rewrite SE. Qed.
    Lemma seen_end x : b_end (gv x) = b_end (g x).
    Proof. now rewrite SE. Qed.
    Lemma seen_empty x : block_empty (gv x) = is_empty kind (g x).
    Proof. rewrite SE. unfold view, block_empty. cbn. now destruct (is_empty kind (g x)). Qed.
    Lemma next_nz x n : b_end (g x) = ENext (Some n) -> n <> 0.
    Proof. intros E ->. apply (Z x). rewrite E. now left. Qed.
    Lemma init_not_empty x : existsb (is_init kind) (b_ins (g x)) = true -> block_empty (g x) = false.
    Proof. unfold block_empty. now destruct (b_ins (g x)). Qed.

    Lemma ff_loop_seen : forall f l cur y, cur <> 0 -> b_noskip (g cur) = false -> ff_loop f g l cur = Some y -> ff_loop f gv l cur = Some y.
    Proof.
      induction f as [|f IH]; intros l cur y N K H; cbn [ff_loop] in *; [discriminate|]. rewrite seen_empty, (F1 cur N K), seen_end.
      destruct (block_empty (g cur)); cbn [negb] in *; [|exact H]. destruct (b_end (g cur)) as [|[n|]| | | | | |] eqn:E; try exact H.
      pose proof (next_nz _ _ E) as Nn. rewrite seen_state. replace (b_noskip (gv n)) with (b_noskip (g n) || existsb (is_init kind) (b_ins (g n))) by now rewrite SE.
      destruct (b_noskip (g n)) eqn:Kn; cbn [orb]; [exact H|]. destruct (existsb (is_init kind) (b_ins (g n))) eqn:In_.
      - destruct (F2 n Nn In_) as [X|X]; [congruence|]. rewrite X in H. destruct f as [|f]; [discriminate|]. cbn [ff_loop] in H. rewrite (init_not_empty n In_) in H. exact H.
      - apply IH; assumption.
    Qed.
    Lemma ff_seen f x y : x <> 0 -> b_state (g x) = true -> fast_forward f g x = Some y -> fast_forward f gv x = Some y.
    Proof.
      intros N S. unfold fast_forward. replace (b_noskip (gv x)) with (b_noskip (g x) || existsb (is_init kind) (b_ins (g x))) by now rewrite SE.
      destruct (b_noskip (g x)) eqn:K; cbn [orb]; [auto|]. destruct (existsb (is_init kind) (b_ins (g x))) eqn:In_.
      - destruct (F2 x N In_) as [X|X]; congruence.
      - now apply ff_loop_seen.
    Qed.

    Lemma push_seen f p : forall cs q r z, ~ In (Some 0) cs -> push_children f g p cs q r = Some z -> push_children f gv p cs q r = Some z.
    Proof.
      induction cs as [|[c|] cs IH]; intros q r z N H; cbn [push_children] in *; [exact H| |discriminate].
      apply obind_some in H. destruct H as [c' [H1 H2]]. rewrite seen_state.
      replace (if b_state (g c) then fast_forward f gv c else Some c) with (Some c').
      2:{ destruct (b_state (g c)) eqn:S; [|now symmetry]. symmetry. apply ff_seen; [intros ->; apply N; now left|exact S|exact H1]. }
      cbn [obind]. assert (N' : ~ In (Some 0) cs) by (intros X; apply N; now right).
      destruct (memb c' (r_vis r)); [now apply IH|]. destruct p; [now apply IH|discriminate].
    Qed.
    Lemma loop_seen ff : forall f q r z, renumber_loop f ff g q r = Some z -> renumber_loop f ff gv q r = Some z.
    Proof.
      induction f as [|f IH]; intros [|[b p] q] r z H; cbn [renumber_loop] in *; try discriminate; try exact H. rewrite seen_state, seen_end.
      destruct (b_state (g b)).
      - destruct (r_sid r b); [discriminate|]. apply obind_some in H. destruct H as [[q2 r2] [H1 H2]]. rewrite (push_seen _ _ _ _ _ _ (Z b) H1). cbn [obind]. now apply IH.
      - apply obind_some in H. destruct H as [[q2 r2] [H1 H2]]. rewrite (push_seen _ _ _ _ _ _ (Z b) H1). cbn [obind]. now apply IH.
    Qed.
    Lemma renumber_seen f z : renumber f g = Some z -> renumber f gv = Some z.
    Proof. apply loop_seen. Qed.
    Lemma unreachable_seen r x : unreachable gv r x = unreachable g r x.
    Proof. unfold unreachable. now rewrite seen_state. Qed.
  End Ff.

  Lemma seen_set gv g a v : seen gv g -> seen (set_state gv a v) (set_state g a v).
  Proof. intros SE x. unfold set_state, gset. destruct (Nat.eqb x a); rewrite ?SE; reflexivity. Qed.

  Lemma prevent_seen r unr unr' : (forall b, unr' b = unr b) -> forall bs gv g ch g2 ch2, seen gv g -> prevent r unr bs g ch = Some (g2, ch2) ->
    exists gv2, prevent r unr' bs gv ch = Some (gv2, ch2) /\ seen gv2 g2.
  Proof.
    intros U. induction bs as [|b bs IH]; intros gv g ch g2 ch2 SE H; cbn [prevent] in *; [injection H as <- <-; exists gv; auto|].
    rewrite U. destruct (unr b); [now apply (IH gv g)|]. rewrite (seen_end gv g SE). destruct (b_end (g b)) as [| |e ib fi it eb fe et af| | | | |]; try (now apply (IH gv g)).
    rewrite (seen_state gv g SE). destruct (b_state (g af)); [now apply (IH gv g)|]. destruct ((dead r it && fi) || (dead r et && fe)); [discriminate|].
    eapply IH; [apply seen_set; exact SE|exact H].
  Qed.
  Lemma prevent_same r unr : forall bs g ch g2 ch2, prevent r unr bs g ch = Some (g2, ch2) ->
    forall x, b_end (g2 x) = b_end (g x) /\ b_ins (g2 x) = b_ins (g x) /\ b_noskip (g2 x) = b_noskip (g x) /\ (b_state (g x) = true -> b_state (g2 x) = true).
  Proof.
    induction bs as [|b bs IH]; intros g ch g2 ch2 H; cbn [prevent] in H; [injection H as <- <-; auto|].
    destruct (unr b); [exact (IH _ _ _ _ H)|]. destruct (b_end (g b)) as [| |e ib fi it eb fe et af| | | | |]; try exact (IH _ _ _ _ H).
    destruct (b_state (g af)) eqn:S; [exact (IH _ _ _ _ H)|]. destruct ((dead r it && fi) || (dead r et && fe)); [discriminate|].
    intros x. destruct (IH _ _ _ _ H x) as [A [B [C D]]]. clear H IH. unfold set_state, gset in A, B, C, D. destruct (Nat.eqb_spec x af) as [E|E]; [|auto].
    subst x. cbn in A, B, C, D. split; [exact A|]. split; [exact B|]. split; [exact C|]. congruence.
  Qed.
End View.
