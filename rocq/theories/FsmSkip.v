(** Numbering of the states and skipping of empty states, on any graph. *)
From Coq Require Import List Bool Arith ZArith Lia.
Import ListNotations.
From Verif Require Import FsmModel FsmEmit FsmLayout FsmRenum FsmStates FsmArms.

(** * Reachable blocks: the entry, then the children of reachable blocks, those that are states being replaced by the state they skip to. *)
Inductive live (fuel : nat) (g : graph) : nat -> Prop :=
| live_top : live fuel g 0
| live_child b c y : live fuel g b -> In (Some c) (children (b_end (g b))) ->
    (if b_state (g c) then fast_forward fuel g c else Some c) = Some y -> live fuel g y.

Lemma ren_live fuel g r : Ren fuel g r -> forall b, In b (r_vis r) <-> live fuel g b.
Proof.
  intros R b. split.
  - intros H. apply (n_min _ _ _ R (live fuel g)); [|constructor|exact H]. intros x c y Lx Hc T. exact (live_child _ _ _ _ _ Lx Hc T).
  - induction 1 as [|b c y _ IH Hc T]; [exact (n_zero _ _ _ R)|]. destruct (n_child _ _ _ R b (Some c) IH Hc) as [c' [[= <-] [z [Z1 Z2]]]].
    unfold tgt in Z1. assert (z = y) by congruence. now subst z.
Qed.

(** Only states are numbered. *)
Lemma push_sid ff g p : forall cs q r q2 r2, push_children ff g p cs q r = Some (q2, r2) -> r_sid r2 = r_sid r.
Proof.
  induction cs as [|[c|] cs IH]; intros q r q2 r2 H; cbn [push_children] in H; [now injection H as <- <-| |discriminate].
  apply obind_some in H. destruct H as [c' [_ H]]. destruct (memb c' (r_vis r)); [now apply IH in H|]. destruct p; [|discriminate]. now apply IH in H.
Qed.
Lemma loop_sid ff g : forall f q r r', renumber_loop f ff g q r = Some r' ->
  (forall b i, r_sid r b = Some i -> b_state (g b) = true) -> forall b i, r_sid r' b = Some i -> b_state (g b) = true.
Proof.
  induction f as [|f IH]; intros [|[b p] q] r r' H I; cbn [renumber_loop] in H; try discriminate; try (now injection H as <-).
  destruct (b_state (g b)) eqn:Sb.
  - destruct (r_sid r b); [discriminate|]. apply obind_some in H. destruct H as [[q2 r2] [P H]]. apply (IH _ _ _ H).
    apply push_sid in P. cbn in P. intros x i Hx. rewrite P in Hx. unfold fset in Hx. destruct (Nat.eqb_spec x b) as [->|_]; [exact Sb|now apply I in Hx].
  - apply obind_some in H. destruct H as [[q2 r2] [P H]]. apply (IH _ _ _ H). apply push_sid in P. intros x i Hx. rewrite P in Hx. now apply I in Hx.
Qed.
Lemma renumber_ren fuel g r e : renumber fuel g = Some r -> r_sid r 0 = Some e -> Ren fuel g r.
Proof.
  intros H E. eapply loop_ren; [|exact H]. eapply loop_sid; [exact H| |exact E]. cbn. discriminate.
Qed.
Lemma generate_ren fuel s g r e : generate_states fuel s = Some (g, r) -> r_sid r 0 = Some e -> exists g0, Ren fuel g0 r.
Proof.
  unfold generate_states. intros H E. apply obind_some in H. destruct H as [r1 [H1 H]]. apply obind_some in H. destruct H as [[g2 ch] [H2 H]].
  destruct ch.
  - apply obind_some in H. destruct H as [r2 [H3 H]]. injection H as <- <-. exists g2. eapply renumber_ren; eassumption.
  - injection H as <- <-. exists (g_blk s). eapply renumber_ren; eassumption.
Qed.

(** States of the machine. *)
Lemma NoDup_map_inj {A B} (f : A -> option B) (l : list A) : NoDup l -> (forall x y i, In x l -> In y l -> f x = Some i -> f y = Some i -> x = y) ->
  (forall x, In x l -> f x <> None) -> NoDup (map f l).
Proof.
  induction 1 as [|x l N D IH]; intros I Z; cbn; constructor.
  - intros H. apply in_map_iff in H. destruct H as [y [E Hy]]. destruct (f x) as [i|] eqn:Ex; [|now apply (Z x); [left|]].
    apply N. rewrite (I x y i); auto; [now left|now right].
  - apply IH; [intros y z i Hy Hz; apply I; now right|]. intros y Hy. apply Z. now right.
Qed.
Lemma NoDup_some {A} (l : list A) : NoDup (map Some l) -> NoDup l.
Proof. apply NoDup_map_inv. Qed.
Lemma machine_states fuel unit deps0 p m : compile fuel unit deps0 p = Some m ->
  NoDup (map fst (f_arms m)) /\ (forall i, In i (map fst (f_arms m)) -> 1 <= i < f_max m) /\ In (f_entry m) (map fst (f_arms m)).
Proof.
  intros CP. destruct (compile_chain _ _ _ _ _ CP) as [s [g [r CH]]].
  destruct (generate_ren _ _ _ _ _ (h_gen _ _ _ _ _ _ _ _ CH) (h_entry _ _ _ _ _ _ _ _ CH)) as [g0 R].
  destruct (states_arms g r (g_last s) deps0 _ _ _ _ (h_arms _ _ _ _ _ _ _ _ CH)) as [dn [A1 [A2 [A3 [A4 A5]]]]].
  rewrite <- (map_map fst Some) in A3. split; [|split].
  - apply NoDup_some. rewrite <- A3. apply NoDup_map_inj; [exact A1| |].
    + intros x y i _ _ Hx Hy. exact (n_inj _ _ _ R x y i Hx Hy).
    + intros x Hx E. assert (X : In None (map Some (map fst (f_arms m)))) by (rewrite <- A3; apply in_map_iff; now exists x).
      apply in_map_iff in X. destruct X as [? [X _]]. discriminate.
  - intros i Hi. assert (X : In (Some i) (map (fun b => r_sid r b) dn)) by (rewrite A3; now apply in_map).
    apply in_map_iff in X. destruct X as [b [E _]]. apply (n_sid _ _ _ R) in E. rewrite (h_max _ _ _ _ _ _ _ _ CH). tauto.
  - destruct (entry_arm _ _ _ _ _ _ _ _ CH) as [c Hc]. apply arm_of_in in Hc. apply in_map_iff. eexists. split; [|exact Hc]. reflexivity.
Qed.

(** * Skipping *)
(** Unconditional moves through blocks without instructions, never into an explicit step. *)
Inductive skips (g : graph) : nat -> nat -> Prop :=
| sk_refl b : skips g b b
| sk_next b n c : b_ins (g b) = [] -> b_end (g b) = ENext (Some n) -> b_noskip (g n) = false -> skips g n c -> skips g b c.

Lemma skips_trans g a b c : skips g a b -> skips g b c -> skips g a c.
Proof. induction 1; auto. intros X. eapply sk_next; eauto. Qed.
Lemma skips_snoc g a b n : skips g a b -> b_ins (g b) = [] -> b_end (g b) = ENext (Some n) -> b_noskip (g n) = false -> skips g a n.
Proof. intros H I E N. eapply skips_trans; [exact H|]. eapply sk_next; eauto. constructor. Qed.

Lemma empty_ins b : block_empty b = true <-> b_ins b = [].
Proof. unfold block_empty. destruct (b_ins b); split; congruence. Qed.

(** The state found: the last one among the blocks met. *)
Lemma ff_loop_skips g b : forall f l cur y, ff_loop f g l cur = Some y -> skips g b l -> skips g l cur -> b_state (g l) = true ->
  (b_state (g cur) = true -> cur = l) ->
  (forall z, skips g b z -> b_state (g z) = true -> skips g z l \/ skips g cur z) ->
  skips g b y /\ b_state (g y) = true /\ (forall z, skips g b z -> b_state (g z) = true -> skips g z y).
Proof.
  induction f as [|f IH]; intros l cur y H Bl Lc Sl Cl MX; cbn [ff_loop] in H; [discriminate|].
  assert (STOP : (forall n, b_ins (g cur) = [] -> b_end (g cur) = ENext (Some n) -> b_noskip (g n) = true) ->
     skips g b l /\ b_state (g l) = true /\ (forall z, skips g b z -> b_state (g z) = true -> skips g z l)).
  { intros N. split; [exact Bl|]. split; [exact Sl|]. intros z Hz Sz. destruct (MX z Hz Sz) as [X|X]; [exact X|].
    inversion X as [|? n ? I E K]; subst; [rewrite (Cl Sz); constructor|]. rewrite (N n I E) in K. discriminate. }
  destruct (block_empty (g cur)) eqn:B; cbn [negb] in H.
  2:{ injection H as <-. apply STOP. intros n I. apply empty_ins in I. congruence. }
  apply empty_ins in B.
  destruct (b_end (g cur)) as [|[n|]| | | | | |] eqn:E; try (injection H as <-; apply STOP; intros n I X; congruence); [|discriminate].
  destruct (b_noskip (g n)) eqn:K; [injection H as <-; apply STOP; intros n' _ X; congruence|].
  assert (Ln : skips g l n) by (eapply skips_snoc; eassumption).
  assert (MX' : forall z, skips g b z -> b_state (g z) = true -> skips g z l \/ skips g n z).
  { intros z Hz Sz. destruct (MX z Hz Sz) as [X|X]; [now left|]. inversion X as [|? n' ? I E' K']; subst; [left; rewrite (Cl Sz); constructor|].
    right. rewrite E in E'. injection E' as <-. assumption. }
  destruct (b_state (g n)) eqn:Sn; eapply (IH _ _ _ H).
  - eapply skips_trans; eassumption.
  - constructor.
  - exact Sn.
  - reflexivity.
  - intros z Hz Sz. destruct (MX' z Hz Sz) as [X|X]; [left; eapply skips_trans; eassumption|now right].
  - exact Bl.
  - exact Ln.
  - exact Sl.
  - congruence.
  - exact MX'.
Qed.
Lemma fast_forward_skips fuel g b y : fast_forward fuel g b = Some y -> b_state (g b) = true -> b_noskip (g b) = false ->
  skips g b y /\ b_state (g y) = true /\ (forall z, skips g b z -> b_state (g z) = true -> skips g z y).
Proof.
  unfold fast_forward. intros H S N. rewrite N in H. eapply ff_loop_skips; [exact H|constructor|constructor|exact S|auto|]. intros z Hz _. now right.
Qed.
(** An explicit step is not skipped. *)
Lemma skips_noskip g b y : skips g b y -> b <> y -> b_noskip (g y) = false.
Proof. induction 1 as [b|b n c I E N H IH]; intros X; [congruence|]. destruct (Nat.eq_dec n c) as [ ->|Y]; auto. Qed.

(** Cycles spent in the states skipped: nothing changes. [idle b y]: starting in [b] the machine that skips nothing reaches [y]. *)
Inductive idle (g : graph) : nat -> nat -> Prop :=
| id_refl b : idle g b b
| id_cycle b n y : (forall Q s, walk g (fun x i => i = x) Q b s (fst s, n)) -> b_state (g n) = true -> idle g n y -> idle g b y.

Lemma skips_idle g b y : skips g b y -> b_state (g y) = true -> b = y \/ exists n, b_state (g n) = true /\ (forall Q s, walk g (fun x i => i = x) Q b s (fst s, n)) /\ idle g n y.
Proof.
  induction 1 as [b|b n c I E N H IH]; intros S; [now left|]. right. specialize (IH S). destruct (b_state (g n)) eqn:Sn.
  - exists n. split; [exact Sn|]. split.
    + intros Q s. eapply w_next; [exact E|]. rewrite I. cbn. now apply go_state.
    + destruct IH as [ ->|[n' [S' [W ID]]]]; [constructor|]. eapply id_cycle; eassumption.
  - destruct IH as [ ->|[n' [S' [W ID]]]]; [congruence|]. exists n'. split; [exact S'|]. split; [|exact ID].
    intros Q s. eapply w_next; [exact E|]. rewrite I. cbn. apply go_block; [exact Sn|apply W].
Qed.
Lemma fast_forward_idle fuel g b y : fast_forward fuel g b = Some y -> b_state (g b) = true -> idle g b y.
Proof.
  intros H S. destruct (b_noskip (g b)) eqn:N; [unfold fast_forward in H; rewrite N in H; injection H as <-; constructor|].
  destruct (fast_forward_skips _ _ _ _ H S N) as [K [Sy _]]. destruct (skips_idle _ _ _ K Sy) as [ ->|[n [Sn [W ID]]]]; [constructor|]. eapply id_cycle; eassumption.
Qed.

(** Skipping finishes exactly when there is no infinite sequence of moves. *)
Inductive ends (g : graph) : nat -> Prop :=
| en_stop b : (forall n, b_ins (g b) = [] -> b_end (g b) = ENext (Some n) -> b_noskip (g n) = true) -> ends g b
| en_next b n : b_ins (g b) = [] -> b_end (g b) = ENext (Some n) -> b_noskip (g n) = false -> ends g n -> ends g b.
Lemma ff_loop_ends g : (forall b, b_end (g b) <> ENext None) -> forall b, ends g b <-> exists f, forall l, exists y, ff_loop f g l b = Some y.
Proof.
  intros U b. split.
  - induction 1 as [b H|b n I E N H [f IH]].
    + exists 1. intros l. exists l. cbn [ff_loop]. destruct (block_empty (g b)) eqn:B; cbn [negb]; [|reflexivity]. apply empty_ins in B.
      destruct (b_end (g b)) as [|[n|]| | | | | |] eqn:E; try reflexivity; [|now apply U in E]. now rewrite (H n B eq_refl).
    + exists (S f). intros l. cbn [ff_loop]. apply empty_ins in I. rewrite I, E, N. cbn [negb]. apply IH.
  - intros [f H]. revert b H. induction f as [|f IH]; intros b H; [destruct (H 0) as [y [=]]|].
    destruct (block_empty (g b)) eqn:B; [|apply en_stop; intros n I; apply empty_ins in I; congruence]. apply empty_ins in B.
    destruct (b_end (g b)) as [|[n|]| | | | | |] eqn:E; try (apply en_stop; intros n0 I X; congruence).
    destruct (b_noskip (g n)) eqn:N; [apply en_stop; intros n' _ X; congruence|]. eapply en_next; [exact B|exact E|exact N|]. apply IH. intros l.
    apply empty_ins in B. destruct (ff_shape f g n) as [X|[X|[z X]]].
    + destruct (H l) as [y Hy]. cbn [ff_loop] in Hy. rewrite B, E, N in Hy. cbn [negb] in Hy. rewrite X in Hy. discriminate.
    + exists l. apply X.
    + exists z. apply X.
Qed.
Lemma fast_forward_ends g b : (forall b, b_end (g b) <> ENext None) -> b_noskip (g b) = false -> (ends g b <-> exists f y, fast_forward f g b = Some y).
Proof.
  intros U N. unfold fast_forward. rewrite N, (ff_loop_ends g U). split.
  - intros [f H]. destruct (H b) as [y Hy]. eauto.
  - intros [f [y H]]. exists f. intros l. destruct (ff_shape f g b) as [X|[X|[z X]]]; [rewrite X in H; discriminate|exists l; apply X|exists z; apply X].
Qed.
