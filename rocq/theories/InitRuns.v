(** The blocks gathered from a program hold its runs. *)
From Coq Require Import List Bool Arith ZArith Lia.
Import ListNotations.
From Verif Require Import FsmModel FsmEmit FsmLayout FsmGather FsmBody FsmRenum FsmRegion FsmJoin FsmStates FsmArms InitModel.

Definition seg (l : list stmt) : list run_of := ended (SSoft, []) l ++ [lastrun (SSoft, []) l].

Lemma seg_fix : forall l c,
  (fix seg (c : run_of) (l : list stmt) : list run_of :=
    match l with
    | [] => [c]
    | x :: r => match opens x with
                | None => seg (fst c, snd c ++ adds x) r
                | Some c' => c :: inner x ++ seg c' r
                end
    end) c l = ended c l ++ [lastrun c l].
Proof.
  induction l as [|x r IH]; intros c; [reflexivity|]. cbn [ended lastrun]. destruct (opens x) as [c'|]; [|apply IH].
  rewrite IH. cbn. now rewrite <- app_assoc.
Qed.
Lemma inner_block l : inner (SBlock l) = seg l.
Proof. cbn [inner]. apply seg_fix. Qed.
Lemma inner_if e l : inner (SIf e l) = seg l.
Proof. cbn [inner]. apply seg_fix. Qed.
Lemma inner_while e l : inner (SWhile e l) = seg l.
Proof. cbn [inner]. apply seg_fix. Qed.
Lemma inner_ifelse e l1 l2 : inner (SIfElse e l1 l2) = seg l1 ++ seg l2.
Proof. cbn [inner]. now rewrite !seg_fix. Qed.
Lemma inner_switch e cs : inner (SSwitch e cs) = flat_map (fun c => seg (snd c)) cs.
Proof. cbn [inner]. induction cs as [|c cs IH]; [reflexivity|]. cbn [flat_map]. rewrite IH, seg_fix. reflexivity. Qed.

Lemma firstn_snoc {A} (l : list A) : forall i a, nth_error l i = Some a -> firstn (S i) l = firstn i l ++ [a].
Proof.
  induction l as [|x l IH]; intros [|i] a H; cbn in H; try discriminate; [now injection H as ->|].
  cbn [firstn app]. rewrite <- (IH i a H). reflexivity.
Qed.

Section Runs.
  Variable G : graph.
  Variable Lb : nat -> nat -> Prop.

  (** What is known of a block from the start of its run. *)
  Definition starting (k : start) (x : nat) : Prop :=
    match k with STop => x = 0 | SSoft => b_state (G x) = false | SHard => b_noskip (G x) = true | SOther => True end.
  Definition is_run (R : list run_of) (x : nat) : Prop := b_ins (G x) = [] \/ exists k l, In (k, l) R /\ b_ins (G x) = l /\ starting k x.
  Definition at_run (c : run_of) (b i : nat) : Prop := firstn i (b_ins (G b)) = snd c /\ starting (fst c) b.

  Lemma run_incl R R' x : incl R R' -> is_run R x -> is_run R' x.
  Proof. intros I [H|[k [l [H1 H2]]]]; [now left|right; exists k, l; split; [now apply I|exact H2]]. Qed.
  Lemma run_full c b i : at_run c b i -> full G b i -> b_ins (G b) = snd c.
  Proof. intros [H _] F. unfold full in F. rewrite <- H, <- F. symmetry. apply firstn_all. Qed.
  Lemma run_here c b i R : at_run c b i -> full G b i -> In c R -> is_run R b.
  Proof. intros H F I. right. exists (fst c), (snd c). split; [now destruct c|]. split; [eapply run_full; eassumption|exact (proj2 H)]. Qed.
  Lemma run_none b R : full G b 0 -> is_run R b.
  Proof. intros F. left. unfold full in F. now destruct (b_ins (G b)). Qed.
  Lemma at_zero k b : starting k b -> at_run (k, []) b 0.
  Proof. intros H. split; [reflexivity|exact H]. Qed.
  Lemma at_soft b : fresh G b -> at_run (SSoft, []) b 0.
  Proof. intros [H _]. now apply at_zero. Qed.
  Lemma at_soft_if t b : (b_state (G b) = true -> t = false) -> at_run (soft_if t, []) b 0.
  Proof. intros H. apply at_zero. unfold soft_if. destruct t; cbn; [|exact I]. destruct (b_state (G b)); [discriminate (H eq_refl)|reflexivity]. Qed.

  Lemma runs_ok :
    (forall brk st lo hi b i b' i', tr G Lb brk st lo hi b i b' i' -> b < lo -> forall c, at_run c b i ->
      match opens st with
      | None => b' = b /\ lo = hi /\ at_run (fst c, snd c ++ adds st) b' i'
      | Some c' => full G b i /\ at_run c' b' i' /\ forall x, lo <= x < hi -> x <> b' -> is_run (inner st) x
      end) /\
    (forall brk l lo hi b i b' i', trl G Lb brk l lo hi b i b' i' -> b < lo -> forall c, at_run c b i ->
      at_run (lastrun c l) b' i' /\ forall x, own2 lo hi b b' x -> is_run (ended c l) x) /\
    (forall brk l lo hi b i m, trb G Lb brk l lo hi b i m -> b < lo -> fresh G m /\ full G b i /\ forall x, lo <= x < hi -> x <> m -> is_run (seg l) x) /\
    (forall brk af cs bs lo hi, trcs G Lb brk af cs bs lo hi -> forall x, lo <= x < hi -> is_run (flat_map (fun c => seg (snd c)) cs) x).
  Proof.
    destruct (tr_exit G Lb) as [X1 [X2 [X3 X4]]]. unfold own2.
    apply tr_mutind.
    - intros brk x e lo b i Hn L c [A1 A2]. cbn [opens adds]. split; [reflexivity|]. split; [reflexivity|]. split; [|exact A2].
      rewrite (firstn_snoc _ _ _ Hn), A1. reflexivity.
    - intros brk lo b i Hn L c [A1 A2]. cbn [opens adds]. split; [reflexivity|]. split; [reflexivity|]. split; [|exact A2].
      rewrite (firstn_snoc _ _ _ Hn), A1. reflexivity.
    - intros brk l lo hi b i m Tr IH L c A. cbn [opens]. rewrite inner_block. destruct (IH L) as [F [F2 R]]. split; [exact F2|]. split; [now apply at_soft|exact R].
    - intros brk e l lo m b i ia Fb Eb F1 F2 Tr IH Fi Ni Fe Ne Nm Sm L c A. cbn [opens]. rewrite inner_if. destruct (IH ltac:(lia)) as [F [F3 R]].
      destruct (X3 _ _ _ _ _ _ _ Tr) as [Y1 Y2]. split; [exact Fb|]. split; [now apply at_soft_if|]. intros x Hx Nx.
      destruct (Nat.eq_dec x lo) as [ ->|N1]; [now apply run_none|]. destruct (Nat.eq_dec x (S lo)) as [ ->|N2]; [now apply run_none|].
      destruct (Nat.eq_dec x ia) as [ ->|N3]; [now apply run_none|]. apply R; [lia|exact N3].
    - intros brk e l1 l2 lo m1 m b i ia ea Fb Eb F1 F2 T1 IH1 Fi Ni T2 IH2 Fe Ne Nm Sm L c A. cbn [opens]. rewrite inner_ifelse.
      destruct (IH1 ltac:(lia)) as [F3 [F4 R1]]. destruct (X3 _ _ _ _ _ _ _ T1) as [Y1 Y2]. destruct (X3 _ _ _ _ _ _ _ T2) as [Y3 Y4].
      destruct (IH2 ltac:(lia)) as [F5 [F6 R2]]. split; [exact Fb|].
      split; [apply at_soft_if; intros S; cbn [timeless]; unfold timelesss in Sm; destruct (Sm S) as [ ->| ->]; [reflexivity|now rewrite andb_false_r]|]. intros x Hx Nx.
      destruct (Nat.eq_dec x lo) as [ ->|N1]; [now apply run_none|]. destruct (Nat.eq_dec x (S lo)) as [ ->|N2]; [now apply run_none|].
      destruct (Nat.eq_dec x ia) as [ ->|N3]; [now apply run_none|]. destruct (Nat.eq_dec x ea) as [ ->|N4]; [now apply run_none|].
      destruct (le_lt_dec m1 x) as [H|H]; [apply (run_incl (seg l2)); [apply incl_appr, incl_refl|apply R2; lia]|apply (run_incl (seg l1)); [apply incl_appl, incl_refl|apply R1; lia]].
    - intros brk e cs bs lo hi b i Fb Eb Tr IH Nm Sm L c A. cbn [opens]. rewrite inner_switch. split; [exact Fb|].
      split; [apply at_soft_if; intros S; rewrite Sm in S; now apply negb_true_iff in S|]. intros x Hx Nx. apply IH. lia.
    - intros brk e l lo hi b i il Fb Nb Sl Kl Fl El F1 Kf Sa Tr IH Fi Ni L c A. cbn [opens]. rewrite inner_while. destruct (IH ltac:(lia)) as [F [F3 R]].
      destruct (X3 _ _ _ _ _ _ _ Tr) as [Y1 Y2]. split; [exact Fb|].
      split; [apply at_soft_if; intros S; rewrite Sa in S; now rewrite S|]. intros x Hx Nx.
      destruct (Nat.eq_dec x lo) as [ ->|N1]; [now apply run_none|]. destruct (Nat.eq_dec x (S lo)) as [ ->|N2]; [now apply run_none|].
      destruct (Nat.eq_dec x il) as [ ->|N3]; [now apply run_none|]. apply R; [lia|exact N3].
    - intros t lo b i Fb Nb St F L c A. cbn [opens]. split; [exact Fb|]. split; [now apply at_soft|]. intros x Hx Nx. lia.
    - intros brk lo b i Fb Nb St K L c A. cbn [opens]. split; [exact Fb|]. split; [now apply at_zero|]. intros x Hx Nx. lia.
    - intros brk n lo b i Fb Nb K Hl L c A. cbn [opens]. split; [exact Fb|]. split; [now apply at_zero|]. intros x Hx Nx. lia.
    - intros brk n lo b i Fb Nb F L c A. cbn [opens]. split; [exact Fb|]. split; [now apply at_soft|]. intros x Hx Nx. lia.
    - intros brk d rb lo b i rest Fb Nb Sl Kl Fl El Sn Kn Hi L c A. cbn [opens]. split; [exact Fb|]. split.
      + split; [|exact I]. cbn [snd]. rewrite Hi. rewrite <- (map_length (fun r => IAssign (fst r) (snd r)) rb). rewrite firstn_app, firstn_all, Nat.sub_diag. cbn. apply app_nil_r.
      + intros x Hx Nx. assert (x = lo) by lia. subst x. now apply run_none.
    - intros brk lo b i L c A. split; [exact A|]. intros x Hx. lia.
    - intros brk x r0 lo m hi b i b1 i1 b2 i2 T1 IH1 T2 IH2 L c A.
      destruct (X1 _ _ _ _ _ _ _ _ T1) as [Y1 Y2]. destruct (X2 _ _ _ _ _ _ _ _ T2) as [Y3 Y4]. cbn [lastrun ended]. specialize (IH1 L c A).
      destruct (opens x) as [c'|].
      + destruct IH1 as [F [A1 R1]]. destruct (IH2 ltac:(lia) c' A1) as [A2 R2]. split; [exact A2|]. intros y Hy.
        destruct (Nat.eq_dec y b) as [ ->|N]; [apply (run_here c b i); [exact A|exact F|now left]|].
        assert (O : (lo <= y < m /\ y <> b1) \/ ((y = b1 \/ m <= y < hi) /\ y <> b2)) by lia. destruct O as [[O1 O2]|O].
        * apply (run_incl (inner x)); [intros z Hz; right; apply in_or_app; now left|now apply R1].
        * apply (run_incl (ended c' r0)); [intros z Hz; right; apply in_or_app; now right|now apply R2].
      + destruct IH1 as [ -> [ <- A1]]. destruct (IH2 ltac:(lia) _ A1) as [A2 R2]. split; [exact A2|exact R2].
    - intros brk l lo m b i a j Fb Nb F1 Tr IH Fa Na F2 L. split; [exact F2|]. split; [exact Fb|]. intros x Hx Nx.
      destruct (IH ltac:(lia) (SSoft, []) (at_soft lo F1)) as [A R]. destruct (X2 _ _ _ _ _ _ _ _ Tr) as [Y1 Y2].
      destruct (Nat.eq_dec x a) as [ ->|N1].
      + apply (run_here (lastrun (SSoft, []) l) a j); [exact A|exact Fa|]. unfold seg. apply in_or_app. right. now left.
      + apply (run_incl (ended (SSoft, []) l)); [unfold seg; apply incl_appl, incl_refl|]. apply R. lia.
    - intros; lia.
    - intros brk af v l cs bs lo m hi a F Tr IH Fa Na T2 IH2 x Hx. destruct (X3 _ _ _ _ _ _ _ Tr) as [Y1 Y2]. cbn [flat_map snd].
      destruct (le_lt_dec m x) as [H|H]; [apply (run_incl (flat_map (fun c => seg (snd c)) cs)); [apply incl_appr, incl_refl|apply IH2; lia]|].
      destruct (Nat.eq_dec x a) as [ ->|N1]; [now apply run_none|]. destruct (Nat.eq_dec x lo) as [ ->|N2].
      + apply run_none. exact (proj1 (proj2 (IH ltac:(lia)))).
      + apply (run_incl (seg l)); [apply incl_appl, incl_refl|]. apply (proj2 (proj2 (IH ltac:(lia)))); [lia|exact N1].
  Qed.

  (** The first block has no predecessor. *)
  Hypothesis lbl_pos : forall n x, Lb n x -> x <> 0.
  Definition pos (x : nat) : Prop := ~ In (Some 0) (children (b_end (G x))).
  Lemma pos_next b x : nexts G b x -> x <> 0 -> pos b.
  Proof. unfold nexts, pos. intros -> N [H|[]]. congruence. Qed.
  Lemma pos_ok :
    (forall brk st lo hi b i b' i', tr G Lb brk st lo hi b i b' i' -> brk <> Some 0 -> b < lo -> forall x, own2 lo hi b b' x -> pos x) /\
    (forall brk l lo hi b i b' i', trl G Lb brk l lo hi b i b' i' -> brk <> Some 0 -> b < lo -> forall x, own2 lo hi b b' x -> pos x) /\
    (forall brk l lo hi b i m, trb G Lb brk l lo hi b i m -> brk <> Some 0 -> b < lo -> forall x, own2 lo hi b m x -> pos x) /\
    (forall brk af cs bs lo hi, trcs G Lb brk af cs bs lo hi -> brk <> Some 0 -> af <> 0 -> 0 < lo -> (forall x, lo <= x < hi -> pos x) /\ ~ In 0 (map snd bs)).
  Proof.
    destruct (tr_exit G Lb) as [X1 [X2 [X3 X4]]]. unfold own2.
    apply tr_mutind.
    - intros; lia.
    - intros; lia.
    - intros brk l lo hi b i m Tr IH. exact IH.
    - intros brk e l lo m b i ia Fb Eb F1 F2 Tr IH Fi Ni Fe Ne Nm Sm K L x H. destruct (X3 _ _ _ _ _ _ _ Tr) as [Y1 Y2].
      destruct (Nat.eq_dec x b) as [ ->|N0]; [unfold pos; rewrite Eb; cbn; intros Y; repeat destruct Y as [Y|Y]; try discriminate; try (injection Y; lia); destruct Y|].
      destruct (Nat.eq_dec x ia) as [ ->|N1]; [apply (pos_next _ m); [assumption|lia]|].
      destruct (Nat.eq_dec x (S lo)) as [ ->|N2]; [apply (pos_next _ m); [assumption|lia]|]. apply IH; [exact K| |]; lia.
    - intros brk e l1 l2 lo m1 m b i ia ea Fb Eb F1 F2 T1 IH1 Fi Ni T2 IH2 Fe Ne Nm Sm K L x H. destruct (X3 _ _ _ _ _ _ _ T1) as [Y1 Y2]. destruct (X3 _ _ _ _ _ _ _ T2) as [Y3 Y4].
      destruct (Nat.eq_dec x b) as [ ->|N0]; [unfold pos; rewrite Eb; cbn; intros Y; repeat destruct Y as [Y|Y]; try discriminate; try (injection Y; lia); destruct Y|].
      destruct (Nat.eq_dec x ia) as [ ->|N1]; [apply (pos_next _ m); [assumption|lia]|].
      destruct (Nat.eq_dec x ea) as [ ->|N2]; [apply (pos_next _ m); [assumption|lia]|].
      destruct (Nat.eq_dec x lo); [apply IH1; [exact K| |]; lia|]. destruct (Nat.eq_dec x (S lo)); [apply IH2; [exact K| |]; lia|].
      destruct (le_lt_dec m1 x); [apply IH2; [exact K| |]; lia|apply IH1; [exact K| |]; lia].
    - intros brk e cs bs lo hi b i Fb Eb Tr IH Nm Sm K L x H. destruct (IH K ltac:(lia) ltac:(lia)) as [IHa IHb].
      destruct (Nat.eq_dec x b) as [ ->|N0]; [|apply IHa; lia]. unfold pos. rewrite Eb. cbn. intros Y.
      apply IHb. apply in_map_iff. assert (Z : In (Some 0) (map (fun c => Some (snd c)) bs) \/ lo = 0).
      { apply in_app_or in Y. destruct Y as [Y|[Y|[]]]; [now left|right; congruence]. }
      destruct Z as [Z|Z]; [|lia]. apply in_map_iff in Z. destruct Z as [z [Z1 Z2]]. exists z. split; [congruence|exact Z2].
    - intros brk e l lo hi b i il Fb Nb Sl Kl Fl El F1 Kf Sa Tr IH Fi Ni K L x H. destruct (X3 _ _ _ _ _ _ _ Tr) as [Y1 Y2].
      destruct (Nat.eq_dec x b) as [ ->|N0]; [apply (pos_next _ lo); [assumption|lia]|]. destruct (Nat.eq_dec x il) as [ ->|N1]; [apply (pos_next _ lo); [assumption|lia]|].
      destruct (Nat.eq_dec x lo) as [ ->|N2]; [unfold pos; rewrite El; cbn; intros Y; repeat destruct Y as [Y|Y]; try discriminate; destruct Y|].
      apply IH; [congruence| |]; lia.
    - intros t lo b i Fb Nb St F K L x H. assert (x = b) by lia. subst. apply (pos_next _ t); [assumption|congruence].
    - intros brk lo b i Fb Nb St K K0 L x H. assert (x = b) by lia. subst. apply (pos_next _ lo); [assumption|lia].
    - intros brk n lo b i Fb Nb K Hl K0 L x H. assert (x = b) by lia. subst. apply (pos_next _ lo); [assumption|lia].
    - intros brk n lo b i Fb [Nb|[y [Nb [Hy _]]]] F K L x H; assert (x = b) by lia; subst.
      + unfold pos. rewrite Nb. cbn. intros [Y|[]]. discriminate.
      + apply (pos_next _ y); [assumption|]. eapply lbl_pos. exact Hy.
    - intros brk d rb lo b i rest Fb Nb Sl Kl Fl El Sn Kn Hi K L x H. assert (O : x = b \/ x = lo) by lia. destruct O as [ ->| ->]; [apply (pos_next _ lo); [assumption|lia]|].
      unfold pos. rewrite El. cbn. intros Y. repeat destruct Y as [Y|Y]; try discriminate; try (injection Y; lia); destruct Y.
    - intros; lia.
    - intros brk x r0 lo m hi b i b1 i1 b2 i2 T1 IH1 T2 IH2 K L y H.
      destruct (X1 _ _ _ _ _ _ _ _ T1) as [Y1 Y2]. destruct (X2 _ _ _ _ _ _ _ _ T2) as [Y3 Y4].
      assert (O : ((y = b \/ lo <= y < m) /\ y <> b1) \/ ((y = b1 \/ m <= y < hi) /\ y <> b2)) by lia. destruct O as [O|O]; [apply IH1|apply IH2]; try assumption; lia.
    - intros brk l lo m b i a j Fb Nb F1 Tr IH Fa Na F2 K L x H. destruct (X2 _ _ _ _ _ _ _ _ Tr) as [Y1 Y2].
      destruct (Nat.eq_dec x b) as [ ->|N0]; [apply (pos_next _ lo); [assumption|lia]|]. destruct (Nat.eq_dec x a) as [ ->|N1]; [apply (pos_next _ m); [assumption|lia]|]. apply IH; [exact K| |]; lia.
    - intros brk af lo K N L. split; [intros; lia|intros []].
    - intros brk af v l cs bs lo m hi a F Tr IH Fa Na T2 IH2 K N L. destruct (X3 _ _ _ _ _ _ _ Tr) as [Y1 Y2]. destruct (IH2 K N ltac:(lia)) as [Ia Ib]. split.
      + intros x Hx. destruct (le_lt_dec m x); [apply Ia; lia|].
        destruct (Nat.eq_dec x a) as [ ->|N1]; [apply (pos_next _ af); [assumption|exact N]|]. apply IH; [exact K| |]; lia.
      + cbn. intros [Y|Y]; [lia|exact (Ib Y)].
  Qed.
End Runs.

(** On a compiled program. *)
Lemma labels_pos fuel unit p s : gather_body fuel unit p = Some s -> nojumps (gotoss p) p = true -> forall n x, LbOf s n x -> x <> 0.
Proof.
  intros GB NJ n x HL. unfold gather_body in GB. rewrite body_gather in GB. unfold obind in GB.
  destruct (gather_list fuel None (body unit p) 0 gst0) as [[c s0]|] eqn:GL; [|discriminate].
  destruct (resolve (g_lbl s0) (g_fwd s0) (g_blk s0)) as [g1|] eqn:RS; [|discriminate]. injection GB as <-.
  set (T := gotoss (body unit p)).
  assert (NJ' : nojumps T (body unit p) = true).
  { rewrite body_nojump. unfold T. rewrite <- NJ. clear.
    assert (E : forall n, memb n (gotoss (body unit p)) = memb n (gotoss p)).
    { intros n. destruct (memb n (gotoss p)) eqn:M; [apply memb_In; apply body_gotos; now apply memb_In|].
      apply memb_notIn. rewrite body_gotos. now apply memb_notIn. }
    apply (nojumps_ext _ _ E). }
  destruct (gather_list_ok fuel T (body unit p) None 0 gst0 c s0 GL pre0 NJ' (incl_refl _)) as [P TR].
  unfold LbOf in HL. cbn [g_lbl upd_blk] in HL. apply assoc_in in HL. intros ->.
  exact (f_lbl _ _ _ (p_fut _ _ _ _ _ _ _ P) n 0 HL ltac:(cbn; lia)).
Qed.

Section Chained.
  Variables (fuel : nat) (unit : bool) (p : list stmt) (s : gst) (g : graph) (r : rst) (c ic : nat).
  Hypothesis GB : gather_body fuel unit p = Some s.
  Hypothesis NJ : nojumps (gotoss p) p = true.
  Hypothesis O : Good fuel (body unit p) s g r c ic.

  Definition topruns : list run_of := ended (STop, []) (body unit p).
  Definition endrun : run_of := lastrun (STop, []) (body unit p).

  Lemma block_runs : (forall x, x <> c -> x < g_next s -> is_run g topruns x) /\ b_ins (g c) = snd endrun /\ starting g (fst endrun) c.
  Proof.
    destruct (runs_ok g (LbOf s)) as [_ [R _]].
    destruct (R _ _ _ _ _ _ _ _ (o_tr _ _ _ _ _ _ _ O) ltac:(lia) (STop, []) (at_zero g STop 0 eq_refl)) as [A B]. split; [|split].
    - intros x N L. apply B. unfold own2. lia.
    - eapply run_full; [exact A|exact (o_full _ _ _ _ _ _ _ O)].
    - exact (proj2 A).
  Qed.
  Lemma no_zero x : pos g x.
  Proof.
    destruct (pos_ok g (LbOf s) (labels_pos _ _ _ _ GB NJ)) as [_ [P _]].
    destruct (Nat.eq_dec x c) as [ ->|N]; [unfold pos; rewrite (o_end _ _ _ _ _ _ _ O); intros []|].
    destruct (le_lt_dec (g_next s) x) as [L|L]; [unfold pos; rewrite (o_out _ _ _ _ _ _ _ O x L); intros []|].
    apply (P _ _ _ _ _ _ _ _ (o_tr _ _ _ _ _ _ _ O)); [discriminate|lia|]. unfold own2. lia.
  Qed.
End Chained.
