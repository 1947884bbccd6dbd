(** Branches without a cycle boundary always reach the block after the conditional; the code of a state follows the graph. *)
From Coq Require Import List Bool Arith ZArith Lia.
Import ListNotations.
From Verif Require Import FsmModel FsmEmit FsmLayout FsmRegion.

Definition okend (e : endact) : Prop := match e with ENext (Some _) | EIf _ _ _ _ _ _ _ _ | ESwitch _ _ _ => True | _ => False end.

Section Reach.
  Variable G : graph.
  Variable J : nat -> nat -> Prop.

  Lemma in_succ_if b e ib fi it eb fe et af (c : bool) : b_end (G b) = EIf e ib fi it eb fe et af -> In (if c then ib else eb) (succs G b).
  Proof. unfold succs. intros ->. destruct c; [now left|right; now left]. Qed.
  Lemma in_succ_switch b e cs af v : b_end (G b) = ESwitch e cs af -> In (match pick v cs with Some x => x | None => af end) (succs G b).
  Proof. unfold succs. intros ->. destruct (pick v cs) eqn:E; [right; now apply pick_in with v|now left]. Qed.
  Lemma in_succ_while b e it af (c : bool) : b_end (G b) = EWhile e it af -> In (if c then it else af) (succs G b).
  Proof. unfold succs. intros ->. destruct c; [now left|right; now left]. Qed.
  Lemma in_succ_next b x : b_end (G b) = ENext (Some x) -> In x (succs G b).
  Proof. unfold succs. intros ->. now left. Qed.

  Lemma region_reach (S : nat -> Prop) a : (forall x, S x -> okend (b_end (G x)) /\ forall z, In z (succs G x) -> b_state (G z) = false /\ (S z \/ z = a)) ->
    forall x, S x -> always_reach G J a x.
  Proof.
    intros H x Sx Q s q R. revert Sx.
    refine (run_mut G J Q (Some a) (fun x s q _ => S x -> exists s', q = Reach s') (fun x s q _ => b_state (G x) = false -> S x \/ x = a -> exists s', q = Reach s')
      _ _ _ _ _ _ _ _ _ _ _ _ x s q R).
    - intros b s0 E Sb. destruct (H b Sb) as [O _]. rewrite E in O. destruct O.
    - intros b y s0 q0 E _ IH Sb. destruct (H b Sb) as [_ O]. destruct (O y (in_succ_next _ _ E)). auto.
    - intros b e ib fi it eb fe et af s0 q0 E _ IH Sb. destruct (H b Sb) as [_ O]. exact (IH (proj1 (O _ (in_succ_if _ _ _ _ _ _ _ _ _ _ E))) (proj2 (O _ (in_succ_if _ _ _ _ _ _ _ _ _ _ E)))).
    - intros b e cs af s0 q0 E _ IH Sb. destruct (H b Sb) as [_ O]. exact (IH (proj1 (O _ (in_succ_switch _ _ _ _ _ E))) (proj2 (O _ (in_succ_switch _ _ _ _ _ E)))).
    - intros b e it af s0 q0 E _ IH Sb. destruct (H b Sb) as [O _]. rewrite E in O. destruct O.
    - intros b e w n s0 i E _ Sb. destruct (H b Sb) as [O _]. rewrite E in O. destruct O.
    - intros b c sv cid y rt s0 i E _ Sb. destruct (H b Sb) as [O _]. rewrite E in O. destruct O.
    - intros b c rets y sv s0 i E _ _ Sb. destruct (H b Sb) as [O _]. rewrite E in O. destruct O.
    - intros b c rets s0 E _ Sb. destruct (H b Sb) as [O _]. rewrite E in O. destruct O.
    - intros y s0 i St _ F _. congruence.
    - intros y s0 _ _ _ _. eauto.
    - intros y s0 q0 St Ns _ IH _ [Sy| ->]; [auto|congruence].
  Qed.

  Lemma region_fin (S : nat -> Prop) a : (forall x z, S x -> In z (succs G x) -> b_state (G z) = false -> S z /\ z <> a) ->
    forall x, S x -> never_reach G J a x.
  Proof.
    intros H x Sx Q s q R. revert Sx.
    refine (run_mut G J Q (Some a) (fun x s q _ => S x -> exists s', q = Fin s') (fun x s q _ => (b_state (G x) = false -> S x /\ x <> a) -> exists s', q = Fin s')
      _ _ _ _ _ _ _ _ _ _ _ _ x s q R); try (intros; eauto; fail).
    - intros b y s0 q0 E _ IH Sb. apply IH. intros F. exact (H b y Sb (in_succ_next _ _ E) F).
    - intros b e ib fi it eb fe et af s0 q0 E _ IH Sb. apply IH. intros F. exact (H b _ Sb (in_succ_if _ _ _ _ _ _ _ _ _ _ E) F).
    - intros b e cs af s0 q0 E _ IH Sb. apply IH. intros F. exact (H b _ Sb (in_succ_switch _ _ _ _ _ E) F).
    - intros b e it af s0 q0 E _ IH Sb. apply IH. intros F. exact (H b _ Sb (in_succ_while _ _ _ _ _ E) F).
    - intros y s0 F E K. injection E as ->. destruct (K F). congruence.
    - intros y s0 q0 F _ _ IH K. destruct (K F). auto.
  Qed.
End Reach.

Section Join.
  Variable G : graph.
  Variable Lb : nat -> nat -> Prop.
  Hypothesis nounres : forall b, b_end (G b) <> ENext None.
  Variable T : list nat.
  Hypothesis HT : forall n x, Lb n x -> b_state (G x) = true -> In n T.

  Notation full := (full G).
  Notation nexts := (nexts G).
  Notation fresh := (fresh G).
  Notation tr := (tr G Lb).
  Notation trl := (trl G Lb).
  Notation trb := (trb G Lb).
  Notation trcs := (trcs G Lb).
  Notation succs := (succs G).

  Definition quietL (l : list nat) : Prop := forall n, In n l -> ~ In n T.

  (** Blocks of instructions without cycle boundary. *)
  Definition calm (own : nat -> Prop) (lo hi : nat) (ex : nat -> Prop) : Prop :=
    (forall x, lo <= x < hi -> b_state (G x) = false) /\
    (forall x, own x -> okend (b_end (G x)) /\ forall z, In z (succs x) -> lo <= z < hi \/ ex z).

  Lemma calm_next b x lo hi (ex : nat -> Prop) : nexts b x -> lo <= x < hi \/ ex x -> okend (b_end (G b)) /\ forall z, In z (succs b) -> lo <= z < hi \/ ex z.
  Proof. intros N H. rewrite (succs_next G b x N). unfold FsmLayout.nexts in N. rewrite N. split; [exact I|]. intros z [ <-|[]]. exact H. Qed.

  Lemma quiet_app a b : quietL (a ++ b) -> quietL a /\ quietL b.
  Proof. intros H. split; intros n Hn; apply H; apply in_or_app; auto. Qed.

  Lemma calm_ok :
    (forall brk st lo hi b i b' i', tr brk st lo hi b i b' i' -> b < lo -> timeless st = true -> quietL (labels st) -> calm (own2 lo hi b b') lo hi noX) /\
    (forall brk l lo hi b i b' i', trl brk l lo hi b i b' i' -> b < lo -> timelesss l = true -> quietL (labelss l) -> calm (own2 lo hi b b') lo hi noX) /\
    (forall brk l lo hi b i m, trb brk l lo hi b i m -> b < lo -> timelesss l = true -> quietL (labelss l) -> calm (own2 lo hi b m) lo hi noX) /\
    (forall brk af cs bs lo hi, trcs brk af cs bs lo hi -> forallb (fun c => timelesss (snd c)) cs = true -> quietL (flat_map (fun c => labelss (snd c)) cs) ->
       calm (fun x => lo <= x < hi) lo hi (fun z => z = af)).
  Proof.
    destruct (tr_exit G Lb) as [X1 [X2 [X3 X4]]].
    apply tr_mutind; try (intros; discriminate).
    - intros. split; [lia|unfold own2; lia].
    - intros. split; [lia|unfold own2; lia].
    - intros brk l lo hi b i m Tr IH L Tl Q. exact (IH L Tl Q).
    - intros brk e l lo m b i ia Fb Eb F1 F2 Tr IH Fi Ni Fe Ne Nm Sm L Tl Q. change (timelesss l = true) in Tl.
      destruct (X3 _ _ _ _ _ _ _ Tr) as [Y1 Y2]. destruct (IH ltac:(lia) Tl Q) as [C1 C2]. split.
      + intros x Hx. destruct (Nat.eq_dec x lo) as [ ->|N1]; [apply F1|]. destruct (Nat.eq_dec x (S lo)) as [ ->|N2]; [apply F2|].
        destruct (Nat.eq_dec x m) as [ ->|N3]; [destruct (b_state (G m)); [specialize (Sm eq_refl); congruence|reflexivity]|apply C1; lia].
      + intros x [H1 H2]. destruct (Nat.eq_dec x b) as [ ->|N0].
        { rewrite Eb. split; [exact I|]. unfold FsmEmit.succs. rewrite Eb. cbn. lia. }
        destruct (Nat.eq_dec x ia) as [ ->|N1]; [apply (calm_next _ m); [exact Ni|lia]|].
        destruct (Nat.eq_dec x (S lo)) as [ ->|N2]; [apply (calm_next _ m); [exact Ne|lia]|].
        destruct (C2 x) as [K1 K2]; [unfold own2; lia|]. split; [exact K1|]. intros z Hz. destruct (K2 z Hz) as [K|[]]. lia.
    - intros brk e l1 l2 lo m1 m b i ia ea Fb Eb F1 F2 T1 IH1 Fi Ni T2 IH2 Fe Ne Nm Sm L Tl Q. cbn in Tl, Q. apply andb_true_iff in Tl. destruct Tl as [Tl1 Tl2].
      change (timelesss l1 = true) in Tl1. change (timelesss l2 = true) in Tl2. apply quiet_app in Q. destruct Q as [Q1 Q2].
      destruct (X3 _ _ _ _ _ _ _ T1) as [Y1 Y2]. destruct (X3 _ _ _ _ _ _ _ T2) as [Y3 Y4].
      destruct (IH1 ltac:(lia) Tl1 Q1) as [C1 C2]. destruct (IH2 ltac:(lia) Tl2 Q2) as [D1 D2]. split.
      + intros x Hx. destruct (Nat.eq_dec x lo) as [ ->|N1]; [apply F1|]. destruct (Nat.eq_dec x (S lo)) as [ ->|N2]; [apply F2|].
        destruct (Nat.eq_dec x m) as [ ->|N3]; [destruct (b_state (G m)); [destruct (Sm eq_refl); congruence|reflexivity]|].
        destruct (le_lt_dec m1 x); [apply D1; lia|apply C1; lia].
      + intros x [H1 H2]. destruct (Nat.eq_dec x b) as [ ->|N0].
        { rewrite Eb. split; [exact I|]. unfold FsmEmit.succs. rewrite Eb. cbn. lia. }
        destruct (Nat.eq_dec x ia) as [ ->|N1]; [apply (calm_next _ m); [exact Ni|lia]|].
        destruct (Nat.eq_dec x ea) as [ ->|N2]; [apply (calm_next _ m); [exact Ne|lia]|].
        assert (O : own2 (S (S lo)) m1 lo ia x \/ own2 m1 m (S lo) ea x) by (unfold own2; lia).
        destruct O as [O|O].
        * destruct (C2 x O) as [K1 K2]. split; [exact K1|]. intros z Hz. destruct (K2 z Hz) as [K|[]]. lia.
        * destruct (D2 x O) as [K1 K2]. split; [exact K1|]. intros z Hz. destruct (K2 z Hz) as [K|[]]. lia.
    - intros brk e cs bs lo hi b i Fb Eb Tr IH Nm Sm L Tl Q. pose proof (X4 _ _ _ _ _ _ Tr) as Y.
      destruct (IH Tl Q) as [C1 C2]. 
      assert (HB : forall x, In x (map snd bs) -> S lo <= x < hi).
      { destruct (region_ok G Lb nounres) as [_ [_ [_ K]]]. destruct (K _ _ _ _ _ _ Tr ltac:(lia)) as [R [_ HB]]. exact HB. }
      split.
      + intros x Hx. destruct (Nat.eq_dec x lo) as [ ->|N1]; [now rewrite Sm, Tl|]. apply C1. lia.
      + intros x [H1 H2]. destruct (Nat.eq_dec x b) as [ ->|N0].
        { rewrite Eb. split; [exact I|]. unfold FsmEmit.succs. rewrite Eb. intros z [ <-|Hz]; [lia|]. specialize (HB z Hz). lia. }
        destruct (C2 x) as [K1 K2]; [lia|]. split; [exact K1|]. intros z Hz. destruct (K2 z Hz) as [K|K]; lia.
    - intros brk n lo b i Fb Nb K Hl L _ Q. split.
      + intros x Hx. assert (x = lo) by lia. subst x. destruct (b_state (G lo)) eqn:S; [|reflexivity]. exfalso. apply (Q n); [now left|]. exact (HT n lo Hl S).
      + intros x [H1 H2]. assert (x = b) by lia. subst x. apply (calm_next _ lo); [exact Nb|lia].
    - intros. split; [lia|unfold own2; lia].
    - intros brk x r lo m hi b i b1 i1 b2 i2 T1 IH1 T2 IH2 L Tl Q. cbn in Tl, Q. apply andb_true_iff in Tl. destruct Tl as [Tl1 Tl2].
      apply quiet_app in Q. destruct Q as [Q1 Q2].
      destruct (X1 _ _ _ _ _ _ _ _ T1) as [Y1 Y2]. destruct (X2 _ _ _ _ _ _ _ _ T2) as [Y3 Y4].
      destruct (IH1 ltac:(lia) Tl1 Q1) as [C1 C2]. destruct (IH2 ltac:(lia) Tl2 Q2) as [D1 D2]. split.
      + intros y Hy. destruct (le_lt_dec m y); [apply D1; lia|apply C1; lia].
      + intros y [H1 H2]. assert (O : own2 lo m b b1 y \/ own2 m hi b1 b2 y) by (unfold own2; lia). destruct O as [O|O].
        * destruct (C2 y O) as [K1 K2]. split; [exact K1|]. intros z Hz. destruct (K2 z Hz) as [K|[]]. lia.
        * destruct (D2 y O) as [K1 K2]. split; [exact K1|]. intros z Hz. destruct (K2 z Hz) as [K|[]]. lia.
    - intros brk l lo m b i a j Fb Nb F1 Tr IH Fa Na F2 L Tl Q. destruct (X2 _ _ _ _ _ _ _ _ Tr) as [Y1 Y2]. destruct (IH ltac:(lia) Tl Q) as [C1 C2]. split.
      + intros x Hx. destruct (Nat.eq_dec x lo) as [ ->|N1]; [apply F1|]. destruct (Nat.eq_dec x m) as [ ->|N3]; [apply F2|]. apply C1. lia.
      + intros x [H1 H2]. destruct (Nat.eq_dec x b) as [ ->|N0]; [apply (calm_next _ lo); [exact Nb|lia]|].
        destruct (Nat.eq_dec x a) as [ ->|N1]; [apply (calm_next _ m); [exact Na|lia]|].
        destruct (C2 x) as [K1 K2]; [unfold own2; lia|]. split; [exact K1|]. intros z Hz. destruct (K2 z Hz) as [K|[]]. lia.
    - intros. split; [lia|lia].
    - intros brk af v l cs bs lo m hi a F Tr IH Fa Na T2 IH2 Tl Q. cbn in Tl, Q. apply andb_true_iff in Tl. destruct Tl as [Tl1 Tl2].
      apply quiet_app in Q. destruct Q as [Q1 Q2]. destruct (X3 _ _ _ _ _ _ _ Tr) as [Y1 Y2]. pose proof (X4 _ _ _ _ _ _ T2) as Y3.
      destruct (IH ltac:(lia) Tl1 Q1) as [C1 C2]. destruct (IH2 Tl2 Q2) as [D1 D2]. split.
      + intros y Hy. destruct (le_lt_dec m y); [apply D1; lia|]. destruct (Nat.eq_dec y lo) as [ ->|N]; [apply F|apply C1; lia].
      + intros y Hy. destruct (le_lt_dec m y).
        * destruct (D2 y) as [K1 K2]; [lia|]. split; [exact K1|]. intros z Hz. destruct (K2 z Hz) as [K|K]; [left; lia|now right].
        * destruct (Nat.eq_dec y a) as [ ->|N1]; [apply (calm_next _ af); [exact Na|now right]|].
          destruct (C2 y) as [K1 K2]; [unfold own2; lia|]. split; [exact K1|]. intros z Hz. destruct (K2 z Hz) as [K|[]]. left; lia.
  Qed.

  (** From the beginning to the end without cycle boundary. *)
  Section Through.
    Variable V : nat -> Prop.
    Hypothesis Vc : forall b c, V b -> In (Some c) (children (b_end (G b))) -> b_state (G c) = false -> V c.

    Lemma through_next b x : V b -> nexts b x -> b_state (G x) = false -> V x.
    Proof. intros H N S. apply (Vc b x H); [|exact S]. unfold FsmLayout.nexts in N. rewrite N. now left. Qed.

    Lemma through_ok :
      (forall brk st lo hi b i b' i', tr brk st lo hi b i b' i' -> timeless st = true -> quietL (labels st) -> V b -> V b') /\
      (forall brk l lo hi b i b' i', trl brk l lo hi b i b' i' -> timelesss l = true -> quietL (labelss l) -> V b -> V b') /\
      (forall brk l lo hi b i m, trb brk l lo hi b i m -> timelesss l = true -> quietL (labelss l) -> V b -> V m) /\
      (forall brk af cs bs lo hi, trcs brk af cs bs lo hi -> True).
    Proof.
      apply tr_mutind; try (intros; discriminate); try (intros; exact I).
      - auto.
      - auto.
      - intros brk l lo hi b i m Tr IH Tl Q Hv. exact (IH Tl Q Hv).
      - intros brk e l lo m b i ia Fb Eb F1 F2 Tr IH Fi Ni Fe Ne Nm Sm Tl Q Hv. change (timelesss l = true) in Tl.
        apply (Vc b m Hv); [rewrite Eb; cbn; auto|]. destruct (b_state (G m)); [specialize (Sm eq_refl); congruence|reflexivity].
      - intros brk e l1 l2 lo m1 m b i ia ea Fb Eb F1 F2 T1 IH1 Fi Ni T2 IH2 Fe Ne Nm Sm Tl Q Hv. cbn in Tl. apply andb_true_iff in Tl. destruct Tl as [Tl1 Tl2].
        change (timelesss l1 = true) in Tl1. change (timelesss l2 = true) in Tl2.
        apply (Vc b m Hv); [rewrite Eb; cbn; auto|]. destruct (b_state (G m)); [destruct (Sm eq_refl); congruence|reflexivity].
      - intros brk e cs bs lo hi b i Fb Eb Tr _ Nm Sm Tl Q Hv. apply (Vc b lo Hv); [rewrite Eb; cbn; apply in_or_app; right; now left|]. now rewrite Sm, Tl.
      - intros brk n lo b i Fb Nb K Hl _ Q Hv. apply (through_next b lo Hv Nb). destruct (b_state (G lo)) eqn:S; [|reflexivity]. exfalso. apply (Q n); [now left|]. exact (HT n lo Hl S).
      - auto.
      - intros brk x r lo m hi b i b1 i1 b2 i2 T1 IH1 T2 IH2 Tl Q Hv. cbn in Tl, Q. apply andb_true_iff in Tl. destruct Tl as [Tl1 Tl2].
        apply quiet_app in Q. destruct Q as [Q1 Q2]. apply (IH2 Tl2 Q2). exact (IH1 Tl1 Q1 Hv).
      - intros brk l lo m b i a j Fb Nb F1 Tr IH Fa Na F2 Tl Q Hv. apply (through_next a m); [|exact Na|apply F2]. apply (IH Tl Q). apply (through_next b lo Hv Nb). apply F1.
    Qed.
  End Through.

  (** * Conditionals *)
  Variable r : rst.
  Variable J : nat -> nat -> Prop.
  Variable V : nat -> Prop.
  Hypothesis Vc : forall b c, V b -> In (Some c) (children (b_end (G b))) -> b_state (G c) = false -> V c.
  Hypothesis Vdead : forall b, dead r b = false <-> V b.
  Hypothesis Hprev : forall b e ib fi it eb fe et af, V b -> b_end (G b) = EIf e ib fi it eb fe et af -> b_state (G af) = false ->
    (V it -> fi = true) /\ (V et -> fe = true) /\ (fi = true \/ fe = true).

  Notation join_ok := (join_ok G r J).

  Lemma quiet_of l : quietl T l = true -> timelesss l = true -> quietL (labelss l).
  Proof.
    unfold quietl. intros H Tl. rewrite Tl in H. cbn in H. rewrite forallb_forall in H. intros n Hn. specialize (H n Hn). apply negb_true_iff in H.
    now apply memb_notIn.
  Qed.

  Lemma reach_branch brk l lo hi b m af : trb brk l lo hi b 0 m -> b < lo -> b_state (G b) = false -> timelesss l = true -> quietL (labelss l) -> nexts m af ->
    b_state (G af) = false -> always_reach G J af b.
  Proof.
    intros Tr L Sb Tl Q Nm Sa. destruct calm_ok as [_ [_ [CO _]]]. destruct (CO _ _ _ _ _ _ _ Tr L Tl Q) as [C1 C2].
    destruct (tr_exit G Lb) as [_ [_ [X3 _]]]. destruct (X3 _ _ _ _ _ _ _ Tr) as [Y1 Y2].
    apply (region_reach G J (fun x => x = b \/ lo <= x < hi)); [|now left].
    intros x Hx. destruct (Nat.eq_dec x m) as [ ->|N].
    - rewrite (succs_next G m af Nm). unfold FsmLayout.nexts in Nm. rewrite Nm. split; [exact I|]. intros z [ <-|[]]. auto.
    - destruct (C2 x) as [K1 K2]; [split; assumption|]. split; [exact K1|]. intros z Hz. destruct (K2 z Hz) as [K|[]]. split; [now apply C1|left; now right].
  Qed.

  Lemma succ_child x z : In z (succs x) -> In (Some z) (children (b_end (G x))).
  Proof.
    unfold FsmEmit.succs. destruct (b_end (G x)) as [|[n|]|e ib fi it eb fe et af|e cs af|e it af| | |]; cbn; try tauto.
    - intros [ ->|[]]. now left.
    - intros [ ->|[ ->|[]]]; auto.
    - intros [ ->|H]; apply in_or_app; [right; now left|left]. apply in_map_iff in H. destruct H as [c [ <- H]]. apply in_map_iff. now exists c.
    - intros [ ->|[ ->|[]]]; auto.
  Qed.

  Lemma fin_branch brk l lo hi b m af : trb brk l lo hi b 0 m -> b < lo -> V b -> ~ V m -> af < lo \/ hi <= af -> never_reach G J af b.
  Proof.
    intros Tr L Hv Nm Ha. destruct (region_ok G Lb nounres) as [_ [_ [RO _]]]. destruct (RO _ _ _ _ _ _ _ Tr L) as [R HR].
    apply (region_fin G J (fun x => (x = b \/ lo <= x < hi) /\ V x)); [|split; [now left|exact Hv]].
    intros x z [Hx Vx] Hz Sz. assert (Vz : V z) by (apply (Vc x z Vx); [now apply succ_child|exact Sz]).
    assert (O : own2 lo hi b m x) by (split; [exact Hx|intros ->; contradiction]).
    destruct (g_in _ _ _ _ _ _ HR x z O Hz) as [K|[K|[]]]; [congruence|]. split; [split; [now right|exact Vz]|lia].
  Qed.

  Lemma trcs_fst brk af cs bs lo hi : trcs brk af cs bs lo hi -> map fst bs = map fst cs.
  Proof. intros H. induction H; cbn; [reflexivity|]. now f_equal. Qed.

  Lemma case_reach brk af cs bs lo hi : trcs brk af cs bs lo hi -> forallb (fun c => timelesss (snd c)) cs = true ->
    forallb (fun c => quietl T (snd c)) cs = true -> b_state (G af) = false -> forall x, In x (map snd bs) -> always_reach G J af x.
  Proof.
    intros H. induction H as [|brk af v l cs bs lo m hi a F Tr Fa Na T2 IH]; cbn; [tauto|].
    intros Tl Q Sa x Hx. apply andb_true_iff in Tl, Q. destruct Tl as [Tl1 Tl2], Q as [Q1 Q2].
    destruct Hx as [ <-|Hx]; [|now apply IH]. eapply reach_branch; [exact Tr|lia|apply F|exact Tl1|now apply quiet_of|exact Na|exact Sa].
  Qed.
  Lemma case_fresh brk af cs bs lo hi : trcs brk af cs bs lo hi -> forall x, In x (map snd bs) -> b_state (G x) = false.
  Proof. intros H. induction H as [|brk af v l cs bs lo m hi a F Tr Fa Na T2 IH]; cbn; [tauto|]. intros x [ <-|Hx]; [apply F|now apply IH]. Qed.

  Lemma join_next b x : nexts b x -> join_ok b.
  Proof. unfold FsmLayout.nexts, FsmEmit.join_ok. intros ->. exact I. Qed.

  Lemma joins_ok :
    (forall brk st lo hi b i b' i', tr brk st lo hi b i b' i' -> b < lo -> nojump T st = true -> covered st = true -> forall x, own2 lo hi b b' x -> V x -> join_ok x) /\
    (forall brk l lo hi b i b' i', trl brk l lo hi b i b' i' -> b < lo -> nojumps T l = true -> covereds l = true -> forall x, own2 lo hi b b' x -> V x -> join_ok x) /\
    (forall brk l lo hi b i m, trb brk l lo hi b i m -> b < lo -> nojumps T l = true -> covereds l = true -> forall x, own2 lo hi b m x -> V x -> join_ok x) /\
    (forall brk af cs bs lo hi, trcs brk af cs bs lo hi -> forallb (fun c => nojumps T (snd c)) cs = true -> forallb (fun c => covereds (snd c)) cs = true ->
       forall x, lo <= x < hi -> V x -> join_ok x).
  Proof.
    destruct (tr_exit G Lb) as [X1 [X2 [X3 X4]]]. destruct through_ok with (V := V) as [TH1 [TH2 [TH3 _]]]; [exact Vc|].
    apply tr_mutind.
    - unfold own2. intros; lia.
    - unfold own2. intros; lia.
    - intros brk l lo hi b i m Tr IH L NJ CV. exact (IH L NJ CV).
    - (* if *) intros brk e l lo m b i ia Fb Eb F1 F2 Tr IH Fi Ni Fe Ne Nm Sm L NJ CV x [H1 H2] Vx.
      cbn in NJ. apply andb_true_iff in NJ. destruct NJ as [Ql NJ].
      destruct (X3 _ _ _ _ _ _ _ Tr) as [Y1 Y2].
      destruct (Nat.eq_dec x b) as [ ->|N0].
      + unfold FsmEmit.join_ok. rewrite Eb. split; [apply F1|]. split; [apply F2|]. intros Sa.
        destruct (Hprev b _ _ _ _ _ _ _ _ Vx Eb Sa) as [P1 [P2 P3]].
        assert (Vi : V lo) by (apply (Vc b lo Vx); [rewrite Eb; now left|apply F1]).
        assert (Ve : V (S lo)) by (apply (Vc b (S lo) Vx); [rewrite Eb; cbn; auto|apply F2]).
        split; [|split; [|split; [|split]]].
        * intros D. apply Vdead in D. specialize (P1 D). eapply reach_branch; [exact Tr|lia|apply F1|exact P1|now apply quiet_of|exact Ni|exact Sa].
        * intros _. apply (region_reach G J (fun y => y = S lo)); [|reflexivity]. intros y ->. rewrite (succs_next G _ _ Ne). unfold FsmLayout.nexts in Ne. rewrite Ne.
          split; [exact I|]. intros z [ <-|[]]. auto.
        * intros D. eapply fin_branch; [exact Tr|lia|exact Vi| |right; lia]. intros X. apply Vdead in X. congruence.
        * intros D. apply Vdead in Ve. congruence.
        * intros [_ D]. apply Vdead in Ve. congruence.
      + destruct (Nat.eq_dec x ia) as [ ->|N1]; [now apply (join_next _ m)|]. destruct (Nat.eq_dec x (S lo)) as [ ->|N2]; [now apply (join_next _ m)|].
        apply IH; [lia|exact NJ|exact CV|unfold own2; lia|exact Vx].
    - (* if else *) intros brk e l1 l2 lo m1 m b i ia ea Fb Eb F1 F2 T1 IH1 Fi Ni T2 IH2 Fe Ne Nm Sm L NJ CV x [H1 H2] Vx.
      cbn in NJ, CV. apply andb_true_iff in NJ. destruct NJ as [NJ NJ2]. apply andb_true_iff in NJ. destruct NJ as [NJ NJ1]. apply andb_true_iff in NJ. destruct NJ as [Ql1 Ql2].
      apply andb_true_iff in CV. destruct CV as [CV1 CV2].
      destruct (X3 _ _ _ _ _ _ _ T1) as [Y1 Y2]. destruct (X3 _ _ _ _ _ _ _ T2) as [Y3 Y4].
      destruct (Nat.eq_dec x b) as [ ->|N0].
      + unfold FsmEmit.join_ok. rewrite Eb. split; [apply F1|]. split; [apply F2|]. intros Sa.
        destruct (Hprev b _ _ _ _ _ _ _ _ Vx Eb Sa) as [P1 [P2 P3]].
        assert (Vi : V lo) by (apply (Vc b lo Vx); [rewrite Eb; now left|apply F1]).
        assert (Ve : V (S lo)) by (apply (Vc b (S lo) Vx); [rewrite Eb; cbn; auto|apply F2]).
        split; [|split; [|split; [|split]]].
        * intros D. apply Vdead in D. specialize (P1 D). eapply reach_branch; [exact T1|lia|apply F1|exact P1|now apply quiet_of|exact Ni|exact Sa].
        * intros D. apply Vdead in D. specialize (P2 D). eapply reach_branch; [exact T2|lia|apply F2|exact P2|now apply quiet_of|exact Ne|exact Sa].
        * intros D. eapply fin_branch; [exact T1|lia|exact Vi| |right; lia]. intros X. apply Vdead in X. congruence.
        * intros D. eapply fin_branch; [exact T2|lia|exact Ve| |right; lia]. intros X. apply Vdead in X. congruence.
        * intros [D1 D2]. destruct P3 as [P3|P3].
          -- assert (X : V ia) by (eapply TH3; [exact T1|exact P3|now apply quiet_of|exact Vi]). apply Vdead in X. congruence.
          -- assert (X : V ea) by (eapply TH3; [exact T2|exact P3|now apply quiet_of|exact Ve]). apply Vdead in X. congruence.
      + destruct (Nat.eq_dec x ia) as [ ->|N1]; [now apply (join_next _ m)|]. destruct (Nat.eq_dec x ea) as [ ->|N2]; [now apply (join_next _ m)|].
        assert (O : own2 (S (S lo)) m1 lo ia x \/ own2 m1 m (S lo) ea x) by (unfold own2; lia).
        destruct O as [O|O]; [apply IH1|apply IH2]; try assumption; lia.
    - (* switch *) intros brk e cs bs lo hi b i Fb Eb Tr IH Nm Sm L NJ CV x [H1 H2] Vx.
      cbn in NJ, CV. apply andb_true_iff in NJ, CV. destruct NJ as [Ql NJ], CV as [Dl CV].
      destruct (Nat.eq_dec x b) as [ ->|N0].
      + unfold FsmEmit.join_ok. rewrite Eb. split; [now apply (case_fresh _ _ _ _ _ _ Tr)|]. rewrite Sm.
        change (timeless (SSwitch e cs)) with (forallb (fun c => timelesss (snd c)) cs) in *.
        destruct (forallb (fun c => timelesss (snd c)) cs) eqn:Tl; cbn in *.
        * apply (case_reach _ _ _ _ _ _ Tr Tl Ql Sm).
        * intros v. apply pick_has_default. rewrite (has_default_fst cs bs); [exact Dl|now apply (trcs_fst _ _ _ _ _ _ Tr)].
      + apply IH; [exact NJ|exact CV|lia|exact Vx].
    - (* while *) intros brk e l lo hi b i il Fb Nb Sl Kl Fl El F1 Kf Sa Tr IH Fi Ni L NJ CV x [H1 H2] Vx.
      destruct (X3 _ _ _ _ _ _ _ Tr) as [Y1 Y2].
      destruct (Nat.eq_dec x b) as [ ->|N0]; [now apply (join_next _ lo)|]. destruct (Nat.eq_dec x il) as [ ->|N1]; [now apply (join_next _ lo)|].
      destruct (Nat.eq_dec x lo) as [ ->|N2].
      + unfold FsmEmit.join_ok. rewrite El. split; [apply F1|]. intros Saf.
        destruct (region_ok G Lb nounres) as [_ [_ [RO _]]]. destruct (RO _ _ _ _ _ _ _ Tr ltac:(lia)) as [R HR].
        apply (region_fin G J (fun y => y = S lo \/ S (S (S lo)) <= y < hi)); [|now left].
        intros y z Hy Hz Sz. destruct (Nat.eq_dec y il) as [ ->|Ny].
        * rewrite (succs_next G _ _ Ni) in Hz. destruct Hz as [ <-|[]]. congruence.
        * destruct (g_in _ _ _ _ _ _ HR y z) as [K|[K|[]]]; [split; [exact Hy|exact Ny]|exact Hz|congruence|]. lia.
      + apply IH; [lia|exact NJ|exact CV|unfold own2; lia|exact Vx].
    - intros t lo b i Fb Nb St F L _ _ x [H1 H2] _. assert (x = b) by lia. subst. now apply (join_next _ t).
    - intros brk lo b i Fb Nb St K L _ _ x [H1 H2] _. assert (x = b) by lia. subst. now apply (join_next _ lo).
    - intros brk n lo b i Fb Nb K Hl L _ _ x [H1 H2] _. assert (x = b) by lia. subst. now apply (join_next _ lo).
    - intros brk n lo b i Fb [Nb|[y [Nb _]]] F L _ _ x [H1 H2] _; [destruct (nounres b Nb)|]. assert (x = b) by lia. subst. now apply (join_next _ y).
    - intros brk d rb lo b i rest Fb Nb Sl Kl Fl El Sn Kn Hi L _ _ x [H1 H2] _. assert (O : x = b \/ x = lo) by lia. destruct O as [ ->| ->]; [now apply (join_next _ lo)|].
      unfold FsmEmit.join_ok. rewrite El. exact I.
    - unfold own2. intros; lia.
    - intros brk x r0 lo m hi b i b1 i1 b2 i2 T1 IH1 T2 IH2 L NJ CV y [H1 H2] Vy. cbn in NJ, CV. apply andb_true_iff in NJ, CV. destruct NJ as [NJ1 NJ2], CV as [CV1 CV2].
      destruct (X1 _ _ _ _ _ _ _ _ T1) as [Y1 Y2]. destruct (X2 _ _ _ _ _ _ _ _ T2) as [Y3 Y4].
      assert (O : own2 lo m b b1 y \/ own2 m hi b1 b2 y) by (unfold own2; lia). destruct O as [O|O]; [apply IH1|apply IH2]; try assumption; lia.
    - intros brk l lo m b i a j Fb Nb F1 Tr IH Fa Na F2 L NJ CV x [H1 H2] Vx. destruct (X2 _ _ _ _ _ _ _ _ Tr) as [Y1 Y2].
      destruct (Nat.eq_dec x b) as [ ->|N0]; [now apply (join_next _ lo)|]. destruct (Nat.eq_dec x a) as [ ->|N1]; [now apply (join_next _ m)|].
      apply IH; [lia|exact NJ|exact CV|unfold own2; lia|exact Vx].
    - intros; lia.
    - intros brk af v l cs bs lo m hi a F Tr IH Fa Na T2 IH2 NJ CV x Hx Vx. cbn in NJ, CV. apply andb_true_iff in NJ, CV. destruct NJ as [NJ1 NJ2], CV as [CV1 CV2].
      destruct (X3 _ _ _ _ _ _ _ Tr) as [Y1 Y2]. destruct (le_lt_dec m x); [apply IH2; try assumption; lia|].
      destruct (Nat.eq_dec x a) as [ ->|N1]; [now apply (join_next _ af)|]. apply IH; [lia|exact NJ1|exact CV1|unfold own2; lia|exact Vx].
  Qed.
End Join.
