(** The programs that compile have their breaks inside loops, no label twice, and labels for their jumps. *)
From Coq Require Import List Bool Arith ZArith Lia.
Import ListNotations.
From Verif Require Import FsmModel FsmEmit FsmLayout FsmGather FsmBody FsmRenum FsmRegion FsmJoin FsmStates FsmArms FsmTotal.

Record Rej (lbls gts : list nat) (s s' : gst) : Prop := {
  j_dup : NoDup lbls;
  j_new : forall n, In n lbls -> assoc n (g_lbl s) = None;
  j_lbl : forall n, assoc n (g_lbl s') = None <-> assoc n (g_lbl s) = None /\ ~ In n lbls;
  j_goto : forall n, In n gts -> assoc n (g_lbl s') <> None \/ In n (map fst (g_fwd s'));
  j_fwd : incl (map fst (g_fwd s)) (map fst (g_fwd s'))
}.
Definition stmt_rej (st : stmt) : Prop := forall f brk cur s c' s', gather f brk st cur s = Some (c', s') -> brkok (may brk) st = true /\ Rej (labels st) (gotos st) s s'.

Lemma rej_nil s s' : g_lbl s' = g_lbl s -> g_fwd s' = g_fwd s -> Rej [] [] s s'.
Proof. intros A B. constructor; [constructor|intros n []|intros n; rewrite A; cbn; tauto|intros n []|rewrite B; apply incl_refl]. Qed.
Lemma rej_same l g s s' t t' : g_lbl s = g_lbl t -> g_fwd s = g_fwd t -> g_lbl s' = g_lbl t' -> g_fwd s' = g_fwd t' -> Rej l g s s' -> Rej l g t t'.
Proof. intros A B C D [X1 X2 X3 X4 X5]. rewrite ?A, ?B, ?C, ?D in *. now constructor. Qed.
Lemma NoDup_app_i {A} (a b : list A) : NoDup a -> NoDup b -> (forall x, In x a -> ~ In x b) -> NoDup (a ++ b).
Proof.
  induction 1 as [|x a Hx Ha IH]; cbn; intros Hb D; [exact Hb|]. constructor.
  - intros X. apply in_app_or in X. destruct X as [X|X]; [now apply Hx|]. apply (D x); [now left|exact X].
  - apply IH; [exact Hb|]. intros y Hy. apply D. now right.
Qed.
Lemma rej_app l1 g1 l2 g2 s1 s2 s3 : Rej l1 g1 s1 s2 -> Rej l2 g2 s2 s3 -> Rej (l1 ++ l2) (g1 ++ g2) s1 s3.
Proof.
  intros [A1 A2 A3 A4 A5] [B1 B2 B3 B4 B5]. constructor.
  - apply NoDup_app_i; [exact A1|exact B1|]. intros x Hx Hy. apply B2 in Hy. apply A3 in Hy. tauto.
  - intros n Hn. apply in_app_or in Hn. destruct Hn as [Hn|Hn]; [now apply A2|]. apply B2 in Hn. apply A3 in Hn. tauto.
  - intros n. rewrite B3, A3, in_app_iff. tauto.
  - intros n Hn. apply in_app_or in Hn. destruct Hn as [Hn|Hn]; [|now apply B4]. destruct (A4 n Hn) as [X|X]; [left|right; now apply B5].
    intros Y. apply B3 in Y. tauto.
  - eapply incl_tran; eassumption.
Qed.

Lemma list_rej l : Forall stmt_rej l -> forall f brk cur s c' s', gather_list f brk l cur s = Some (c', s') -> brkoks (may brk) l = true /\ Rej (labelss l) (gotoss l) s s'.
Proof.
  induction 1 as [|x r Hx Hr IH]; intros f brk cur s c' s' G.
  - cbn in G. injection G as _ <-. split; [reflexivity|]. now apply rej_nil.
  - rewrite gather_list_cons in G. destruct (gather f brk x cur s) as [[c1 s1]|] eqn:E; cbn [obind] in G; [|discriminate].
    destruct (Hx _ _ _ _ _ _ E) as [A1 A2]. destruct (IH _ _ _ _ _ _ G) as [B1 B2]. split; [cbn [brkoks forallb]; rewrite A1; exact B1|].
    exact (rej_app _ _ _ _ _ _ _ A2 B2).
Qed.
Lemma block_rej l : Forall stmt_rej l -> forall f brk cur s c' s', gblock f brk l cur s = Some (c', s') -> brkoks (may brk) l = true /\ Rej (labelss l) (gotoss l) s s'.
Proof.
  intros H f brk cur s c' s' G. unfold gblock in G. destruct (gather_list f brk l _ _) as [[a s3]|] eqn:E; cbn [obind] in G; [|discriminate].
  injection G as _ <-. destruct (list_rej l H _ _ _ _ _ _ E) as [A B]. split; [exact A|]. eapply rej_same; [..|exact B]; reflexivity.
Qed.
Lemma cases_rej f brk af : forall cs, Forall (fun c => Forall stmt_rej (snd c)) cs -> forall s bs s', gcases f brk af cs s = Some (bs, s') ->
  forallb (fun c => brkoks (may brk) (snd c)) cs = true /\ Rej (flat_map (fun c => labelss (snd c)) cs) (flat_map (fun c => gotoss (snd c)) cs) s s'.
Proof.
  induction 1 as [|[v l] cs Hl Hc IH]; intros s bs s' G.
  - cbn in G. injection G as _ <-. split; [reflexivity|]. now apply rej_nil.
  - cbn [gcases] in G. destruct (gblock f brk l (g_next s) (addb s)) as [[ca s2]|] eqn:E; cbn [obind] in G; [|discriminate].
    destruct (gcases f brk af cs (st_next s2 ca af)) as [[bs2 s3]|] eqn:E2; cbn [obind] in G; [|discriminate]. injection G as _ <-.
    destruct (block_rej l Hl _ _ _ _ _ _ E) as [A1 A2]. destruct (IH _ _ _ E2) as [B1 B2]. cbn [forallb snd]. rewrite A1. split; [exact B1|].
    cbn [flat_map snd]. eapply rej_app; [|exact B2]. eapply rej_same; [..|exact A2]; reflexivity.
Qed.
Lemma gather_rej st : stmt_rej st.
Proof.
  induction st using stmt_ind'; intros f brk cur s c' s' G.
  - cbn in G. injection G as _ <-. split; [reflexivity|now apply rej_nil].
  - change (gblock f brk l cur s = Some (c', s')) in G. exact (block_rej l H _ _ _ _ _ _ G).
  - rewrite gather_if in G. destruct (gblock f brk l _ _) as [[ia s3]|] eqn:E; cbn [obind] in G; [|discriminate].
    destruct (stateless _ _ _ _) as [fl|]; cbn [obind] in G; [|discriminate]. injection G as _ <-.
    destruct (block_rej l H _ _ _ _ _ _ E) as [A B]. split; [exact A|]. eapply rej_same; [..|exact B]; reflexivity.
  - rewrite gather_ifelse in G. destruct (gblock f brk l1 _ _) as [[ia s3]|] eqn:E1; cbn [obind] in G; [|discriminate].
    destruct (gblock f brk l2 _ _) as [[ea s4]|] eqn:E2; cbn [obind] in G; [|discriminate].
    destruct (stateless f _ [] [g_next s]) as [fi|]; cbn [obind] in G; [|discriminate].
    destruct (stateless f _ [] [S (g_next s)]) as [fe|]; cbn [obind] in G; [|discriminate]. injection G as _ <-.
    destruct (block_rej l1 H _ _ _ _ _ _ E1) as [A1 A2]. destruct (block_rej l2 H0 _ _ _ _ _ _ E2) as [B1 B2].
    split; [cbn [brkok]; apply andb_true_iff; now split|]. cbn [labels gotos]. eapply rej_app; [eapply rej_same; [..|exact A2]; reflexivity|]. eapply rej_same; [..|exact B2]; reflexivity.
  - rewrite gather_switch in G. destruct (gcases f brk _ cs _) as [[bs s2]|] eqn:E; cbn [obind] in G; [|discriminate].
    destruct (gflags _ _ _) as [fl|]; cbn [obind] in G; [|discriminate]. injection G as _ <-.
    destruct (cases_rej f brk _ cs H _ _ _ E) as [A B]. split; [exact A|]. eapply rej_same; [..|exact B]; reflexivity.
  - rewrite gather_while in G. destruct (gblock f _ l _ _) as [[il s5]|] eqn:E; cbn [obind] in G; [|discriminate]. injection G as _ <-.
    destruct (block_rej l H _ _ _ _ _ _ E) as [A B]. split; [exact A|]. eapply rej_same; [..|exact B]; reflexivity.
  - cbn in G. destruct brk as [t|]; [|discriminate]. injection G as _ <-. split; [reflexivity|now apply rej_nil].
  - rewrite gather_step in G. injection G as _ <-. split; [reflexivity|now apply rej_nil].
  - cbn [gather] in G. destruct (assoc n (g_lbl s)) eqn:A; [discriminate|]. injection G as _ <-. split; [reflexivity|]. cbn [labels gotos]. constructor.
    + constructor; [intros []|constructor].
    + intros m [ <-|[]]. exact A.
    + intros m. cbn. destruct (Nat.eqb_spec n m) as [ ->|N]; [split; [discriminate|tauto]|tauto].
    + intros m [].
    + apply incl_refl.
  - cbn [gather] in G. split; [reflexivity|]. cbn [labels gotos]. destruct (assoc n (g_lbl s)) eqn:A; injection G as _ <-.
    + constructor; [constructor|intros m []|intros m; cbn; tauto| |apply incl_refl]. intros m [ <-|[]]. left. cbn. congruence.
    + constructor; [constructor|intros m []|intros m; cbn; tauto| |cbn; intros x Hx; now right]. intros m [ <-|[]]. right. cbn. now left.
  - cbn in G. injection G as _ <-. split; [reflexivity|now apply rej_nil].
  - rewrite gather_join in G. injection G as _ <-. split; [reflexivity|now apply rej_nil].
Qed.

Lemma resolve_lbl lbl : forall fwd g g', resolve lbl fwd g = Some g' -> forall n, In n (map fst fwd) -> assoc n lbl <> None.
Proof.
  induction fwd as [|[m b] fwd IH]; intros g g' H n Hn; [destruct Hn|]. cbn [resolve] in H. destruct (assoc m lbl) as [x|] eqn:A; [|discriminate].
  destruct Hn as [ <-|Hn]; [cbn; congruence|]. exact (IH _ _ H n Hn).
Qed.

Theorem compile_checked fuel unit deps0 p m : compile fuel unit deps0 p = Some m ->
  brkoks false p = true /\ NoDup (labelss p) /\ incl (gotoss p) (labelss p).
Proof.
  unfold compile. destruct (gather_body fuel unit p) as [s|] eqn:G; cbn [obind]; [|discriminate]. intros _.
  unfold gather_body in G. rewrite body_gather in G. destruct (gather_list fuel None (body unit p) 0 gst0) as [[c s0]|] eqn:E; cbn [obind] in G; [|discriminate].
  destruct (resolve _ _ _) as [g|] eqn:R; cbn [obind] in G; [|discriminate].
  destruct (list_rej (body unit p) (proj2 (Forall_forall _ _) (fun st _ => gather_rej st)) _ _ _ _ _ _ E) as [A [B1 B2 B3 B4 B5]].
  rewrite body_labels in *. cbn [may] in A. rewrite body_brk in A. split; [exact A|]. split; [exact B1|]. intros n Hn. apply (body_gotos unit) in Hn.
  destruct (in_dec Nat.eq_dec n (labelss p)) as [X|X]; [exact X|]. exfalso.
  assert (Y : assoc n (g_lbl s0) = None) by (apply B3; now split). destruct (B4 n Hn) as [Z|Z]; [now apply Z|]. exact (resolve_lbl _ _ _ _ R n Z Y).
Qed.
