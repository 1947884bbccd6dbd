(** In the graphs gathered from instructions every block has a parent through which it is always reached. *)
From Coq Require Import List Bool Arith ZArith Lia.
Import ListNotations.
From Verif Require Import FsmModel FsmEmit FsmLayout FsmGather FsmBody FsmRenum FsmRegion FsmJoin FsmStates FsmArms FsmRun AccModel AccBfs.

Section Dom.
  Variable G : graph.
  Variable Lb : nat -> nat -> Prop.
  Hypothesis nounres : forall b, b_end (G b) <> ENext None.
  Variable T : list nat.
  Hypothesis HT : forall n x, Lb n x -> b_state (G x) = true -> In n T.

  Notation full := (full G).
  Notation nexts := (nexts G).
  Notation fresh := (fresh G).
  Notation tr := (tr G Lb).
  Notation trl := (trl G Lb).
  Notation trb := (trb G Lb).
  Notation trcs := (trcs G Lb).
  Notation edge := (edge G).

  (** Where the edges go. *)
  Lemma edge_next b x z : nexts b x -> edge b z -> z = x.
  Proof. unfold FsmLayout.nexts, AccBfs.edge. intros ->. intros [[= ->]|[]]. reflexivity. Qed.

  Lemma edge_cases x z : plain G x -> edge x z -> In z (succs G x) \/ after_of (b_end (G x)) = Some z \/ b_state (G z) = true.
  Proof.
    unfold AccBfs.edge, plain, succs. destruct (b_end (G x)) as [|[n|]|e ib fi it eb fe et af|e cs af|e it af|e w n|c sv cid go rt|c rets]; cbn; intros P H; try tauto.
    - destruct H as [[= ->]|[]]. auto.
    - destruct H as [[= ->]|[[= ->]|[[= ->]|[]]]]; auto.
    - apply in_app_or in H. destruct H as [H|[[= ->]|[]]]; [|auto]. apply in_map_iff in H. destruct H as [c [[= <-] H]]. left. right. apply in_map_iff. now exists c.
    - destruct H as [[= ->]|[[= ->]|[]]]; auto.
    - destruct P as [P1 P2]. destruct H as [[= ->]|[[= ->]|[]]]; auto.
  Qed.

  Lemma out_ok :
    (forall brk st lo hi b i b' i', tr brk st lo hi b i b' i' -> b < lo -> forall x z, own2 lo hi b b' x -> edge x z -> b_state (G z) = true \/ lo <= z < hi) /\
    (forall brk l lo hi b i b' i', trl brk l lo hi b i b' i' -> b < lo -> forall x z, own2 lo hi b b' x -> edge x z -> b_state (G z) = true \/ lo <= z < hi) /\
    (forall brk l lo hi b i m, trb brk l lo hi b i m -> b < lo -> forall x z, own2 lo hi b m x -> edge x z -> b_state (G z) = true \/ lo <= z < hi) /\
    (forall brk af cs bs lo hi, trcs brk af cs bs lo hi -> af < lo -> forall x z, lo <= x < hi -> edge x z -> b_state (G z) = true \/ lo <= z < hi \/ z = af).
  Proof.
    destruct (region_ok G Lb nounres) as [R1 [R2 [R3 R4]]]. destruct (plain_ok G Lb) as [P1 [P2 [P3 P4]]].
    split; [|split; [|split]].
    - intros brk st lo hi b i b' i' Tr L x z O E. destruct (R1 _ _ _ _ _ _ _ _ Tr L) as [R HR].
      destruct (edge_cases x z (P1 _ _ _ _ _ _ _ _ Tr L x O) E) as [K|[K|K]]; [|destruct (g_af _ _ _ _ _ _ HR x z O K); tauto|tauto].
      destruct (g_in _ _ _ _ _ _ HR x z O K) as [Y|[Y|[]]]; tauto.
    - intros brk st lo hi b i b' i' Tr L x z O E. destruct (R2 _ _ _ _ _ _ _ _ Tr L) as [R HR].
      destruct (edge_cases x z (P2 _ _ _ _ _ _ _ _ Tr L x O) E) as [K|[K|K]]; [|destruct (g_af _ _ _ _ _ _ HR x z O K); tauto|tauto].
      destruct (g_in _ _ _ _ _ _ HR x z O K) as [Y|[Y|[]]]; tauto.
    - intros brk st lo hi b i m Tr L x z O E. destruct (R3 _ _ _ _ _ _ _ Tr L) as [R HR].
      destruct (edge_cases x z (P3 _ _ _ _ _ _ _ Tr L x O) E) as [K|[K|K]]; [|destruct (g_af _ _ _ _ _ _ HR x z O K); tauto|tauto].
      destruct (g_in _ _ _ _ _ _ HR x z O K) as [Y|[Y|[]]]; tauto.
    - intros brk af cs bs lo hi Tr L x z O E. destruct (R4 _ _ _ _ _ _ Tr L) as [R [HR _]].
      destruct (edge_cases x z (P4 _ _ _ _ _ _ Tr x O) E) as [K|[K|K]]; [|destruct (g_af _ _ _ _ _ _ HR x z O K); tauto|tauto].
      destruct (g_in _ _ _ _ _ _ HR x z O K) as [Y|[Y|Y]]; tauto.
  Qed.

  Lemma trcs_heads brk af cs bs lo hi : trcs brk af cs bs lo hi -> forall x, In x (map snd bs) -> lo <= x < hi.
  Proof.
    destruct (tr_exit G Lb) as [_ [_ [X3 X4]]].
    intros H. induction H as [|brk af v l cs bs lo m hi a F Tr Fa Na T2 IH]; cbn; [tauto|]. pose proof (X4 _ _ _ _ _ _ T2). destruct (X3 _ _ _ _ _ _ _ Tr).
    intros x [ <-|Hx]; [lia|]. specialize (IH x Hx). lia.
  Qed.

  Section Head.
    Variable h : nat.
    Hypothesis Sh : b_state (G h) = true.
    Notation V := (rch G h).
    Variable W : nat -> Prop.
    Hypothesis VW : forall x, V x -> W x.
    Hypothesis Hprev : forall b e ib fi it eb fe et af, W b -> b_end (G b) = EIf e ib fi it eb fe et af -> b_state (G af) = false ->
      (W it -> fi = true) /\ (W et -> fe = true) /\ (fi = true \/ fe = true).
    Notation dm := (dm G h).

    Definition Dom (c : nat) : Prop := forall p1 p2, V p1 -> edge p1 c -> V p2 -> edge p2 c -> exists d, dm d c p1 /\ dm d c p2.

    Lemma dom_one c d : (forall p, V p -> edge p c -> p = d) -> Dom c.
    Proof. intros H p1 p2 V1 E1 V2 E2. exists d. split; left; auto. Qed.

    (** Closed except from [d]. *)
    Definition shut (d : nat) (Z : nat -> Prop) : Prop := forall y z, V y -> Z z -> b_state (G z) = false -> edge y z -> Z y \/ y = d.
    Lemma shut_in d Z p : shut d Z -> V p -> Z p -> Z h \/ V d.
    Proof.
      intros H Vp. induction Vp as [|q p Vq IH E Sp]; [now left|]. intros Zp. destruct (H q p Vq Zp Sp E) as [K| ->]; [now apply IH|now right].
    Qed.

    (** Two branches joining in [c]. *)
    Lemma dom_two c d p1 p2 (Z1 Z2 : nat -> Prop) : edge d c -> (forall p, V p -> edge p c -> p = d \/ p = p1 \/ p = p2) -> Z1 p1 -> Z2 p2 -> shut d Z1 -> shut d Z2 ->
      (Z1 h -> Z2 h -> False) -> (Z1 h \/ ~ Z1 h) -> (Z2 h \/ ~ Z2 h) -> (V d -> V p1 -> ~ Z1 h) -> (V d -> V p2 -> ~ Z2 h) -> Dom c.
    Proof.
      intros Ed Hp H1 H2 C1 C2 Dj K1 K2 N1 N2 a1 a2 V1 E1 V2 E2.
      assert (M1 : V p1 -> ~ Z1 h -> dm d c p1) by (intros _ N; right; split; [exact Ed|]; exists Z1; auto).
      assert (M2 : V p2 -> ~ Z2 h -> dm d c p2) by (intros _ N; right; split; [exact Ed|]; exists Z2; auto).
      assert (MD : dm d c d) by (now left).
      destruct (Hp a1 V1 E1) as [ ->|[ ->| ->]], (Hp a2 V2 E2) as [ ->|[ ->| ->]].
      - exists d. auto.
      - exists d. auto.
      - exists d. auto.
      - exists d. auto.
      - exists p1. split; now left.
      - destruct (shut_in d Z1 p1 C1 V1 H1) as [Y|Y]; [|exists d; auto]. destruct (shut_in d Z2 p2 C2 V2 H2) as [Y'|Y']; [now destruct (Dj Y Y')|exists d; auto].
      - exists d. auto.
      - destruct (shut_in d Z1 p1 C1 V2 H1) as [Y|Y]; [|exists d; auto]. destruct (shut_in d Z2 p2 C2 V1 H2) as [Y'|Y']; [now destruct (Dj Y Y')|exists d; auto].
      - exists p2. split; now left.
    Qed.

    Lemma in_dec2 a lo hi : (h = a \/ lo <= h < hi) \/ ~ (h = a \/ lo <= h < hi).
    Proof. lia. Qed.

    (** Parents of the blocks of a part. *)
    Definition inner (lo hi : nat) (own : nat -> Prop) : Prop := forall y z, V y -> edge y z -> b_state (G z) = false -> lo <= z < hi -> own y.

    (** A branch ending in a block reached in the cycle has no state. *)
    Lemma branch_calm brk l lo hi b m : trb brk l lo hi b 0 m -> b < lo -> b_state (G b) = false -> quietl T l = true -> timelesss l = true -> ~ (h = b \/ lo <= h < hi).
    Proof.
      intros Tr L Sb Q Tl [ ->|H]; [congruence|]. destruct (calm_ok G Lb nounres T HT) as [_ [_ [C _]]].
      destruct (C _ _ _ _ _ _ _ Tr L Tl (quiet_of T l Q Tl)) as [K _]. specialize (K h H). congruence.
    Qed.

    Lemma dom_ok :
      (forall brk st lo hi b i b' i', tr brk st lo hi b i b' i' -> b < lo -> nojump T st = true -> inner lo hi (own2 lo hi b b') ->
         forall c, lo <= c < hi -> b_state (G c) = false -> Dom c) /\
      (forall brk l lo hi b i b' i', trl brk l lo hi b i b' i' -> b < lo -> nojumps T l = true -> inner lo hi (own2 lo hi b b') ->
         forall c, lo <= c < hi -> b_state (G c) = false -> Dom c) /\
      (forall brk l lo hi b i m, trb brk l lo hi b i m -> b < lo -> nojumps T l = true -> inner lo hi (own2 lo hi b m) ->
         forall c, lo <= c < hi -> b_state (G c) = false -> Dom c) /\
      (forall brk af cs bs lo hi, trcs brk af cs bs lo hi -> forallb (fun c => nojumps T (snd c)) cs = true ->
         forall hd, af < lo -> hd < lo -> (forall z, lo <= z < hi -> edge hd z -> In z (map snd bs)) -> inner lo hi (fun y => lo <= y < hi \/ y = hd) ->
         forall c, lo <= c < hi -> b_state (G c) = false -> Dom c).
    Proof.
      destruct (tr_exit G Lb) as [X1 [X2 [X3 X4]]]. destruct out_ok as [U1 [U2 [U3 U4]]].
      apply tr_mutind.
      - intros; lia.
      - intros; lia.
      - intros brk l lo hi b i m Tr IH. exact IH.
      - (* if *) intros brk e l lo m b i ia Fb Eb F1 F2 Tr IH Fi Ni Fe Ne Nm Sm L NJ In_ c Hc Sc.
        cbn in NJ. apply andb_true_iff in NJ. destruct NJ as [Ql NJ]. destruct (X3 _ _ _ _ _ _ _ Tr) as [Y1 Y2].
        assert (EB : forall z, edge b z -> z = lo \/ z = S lo \/ z = m) by (intros z; unfold AccBfs.edge; rewrite Eb; intros [[= ->]|[[= ->]|[[= ->]|[]]]]; auto).
        assert (CL : forall y z, V y -> edge y z -> b_state (G z) = false -> lo <= z < S m ->
          (y = b /\ (z = lo \/ z = S lo \/ z = m)) \/ (y = S lo /\ z = m) \/ (y = ia /\ z = m) \/ (own2 (S (S lo)) m lo ia y /\ S (S lo) <= z < m)).
        { intros y z Vy E Sz Hz. pose proof (In_ y z Vy E Sz Hz) as O. unfold own2 in O.
          destruct (Nat.eq_dec y b) as [ ->|N0]; [left; auto|]. right. destruct (Nat.eq_dec y (S lo)) as [ ->|N1]; [left; split; [reflexivity|now apply (edge_next _ _ _ Ne)]|].
          right. destruct (Nat.eq_dec y ia) as [ ->|N2]; [left; split; [reflexivity|now apply (edge_next _ _ _ Ni)]|]. right.
          assert (O' : own2 (S (S lo)) m lo ia y) by (unfold own2; lia). split; [exact O'|].
          destruct (U3 _ _ _ _ _ _ _ Tr ltac:(lia) y z O' E) as [K|K]; [congruence|exact K]. }
        destruct (Nat.eq_dec c lo) as [ ->|Nl]; [apply (dom_one _ b); intros p Vp E; destruct (CL p lo Vp E Sc ltac:(lia)) as [K|[K|[K|K]]]; lia|].
        destruct (Nat.eq_dec c (S lo)) as [ ->|Ns]; [apply (dom_one _ b); intros p Vp E; destruct (CL p (S lo) Vp E Sc ltac:(lia)) as [K|[K|[K|K]]]; lia|].
        destruct (Nat.eq_dec c m) as [ ->|Nc].
        + apply (dom_two m b ia (S lo) (fun y => y = lo \/ S (S lo) <= y < m) (fun y => y = S lo)); try lia.
          * unfold AccBfs.edge. rewrite Eb. cbn. auto.
          * intros p Vp E. destruct (CL p m Vp E Sc ltac:(lia)) as [K|[K|[K|K]]]; lia.
          * intros y z Vy Zz Sz E. destruct (CL y z Vy E Sz ltac:(lia)) as [K|[K|[K|K]]]; unfold own2 in *; lia.
          * intros y z Vy Zz Sz E. destruct (CL y z Vy E Sz ltac:(lia)) as [K|[K|[K|K]]]; unfold own2 in *; lia.
          * intros Vb Vi. destruct (Hprev b _ _ _ _ _ _ _ _ (VW _ Vb) Eb Sc) as [P1 _].
            apply (branch_calm _ _ _ _ _ _ Tr); [lia|apply F1|exact Ql|exact (P1 (VW _ Vi))].
          * intros _ _ ->. destruct F2. congruence.
        + apply IH; [lia|exact NJ| |lia|exact Sc]. intros y z Vy E Sz Hz. destruct (CL y z Vy E Sz ltac:(lia)) as [K|[K|[K|K]]]; try lia. tauto.
      - (* if else *) intros brk e l1 l2 lo m1 m b i ia ea Fb Eb F1 F2 T1 IH1 Fi Ni T2 IH2 Fe Ne Nm Sm L NJ In_ c Hc Sc.
        cbn in NJ. apply andb_true_iff in NJ. destruct NJ as [NJ NJ2]. apply andb_true_iff in NJ. destruct NJ as [NJ NJ1]. apply andb_true_iff in NJ. destruct NJ as [Ql1 Ql2].
        destruct (X3 _ _ _ _ _ _ _ T1) as [Y1 Y2]. destruct (X3 _ _ _ _ _ _ _ T2) as [Y3 Y4].
        assert (EB : forall z, edge b z -> z = lo \/ z = S lo \/ z = m) by (intros z; unfold AccBfs.edge; rewrite Eb; intros [[= ->]|[[= ->]|[[= ->]|[]]]]; auto).
        assert (CL : forall y z, V y -> edge y z -> b_state (G z) = false -> lo <= z < S m ->
          (y = b /\ (z = lo \/ z = S lo \/ z = m)) \/ (y = ea /\ z = m) \/ (y = ia /\ z = m) \/ (own2 (S (S lo)) m1 lo ia y /\ S (S lo) <= z < m1) \/ (own2 m1 m (S lo) ea y /\ m1 <= z < m)).
        { intros y z Vy E Sz Hz. pose proof (In_ y z Vy E Sz Hz) as O. unfold own2 in O.
          destruct (Nat.eq_dec y b) as [ ->|N0]; [left; auto|]. right. destruct (Nat.eq_dec y ea) as [ ->|N1]; [left; split; [reflexivity|now apply (edge_next _ _ _ Ne)]|].
          right. destruct (Nat.eq_dec y ia) as [ ->|N2]; [left; split; [reflexivity|now apply (edge_next _ _ _ Ni)]|]. right.
          assert (O' : own2 (S (S lo)) m1 lo ia y \/ own2 m1 m (S lo) ea y) by (unfold own2; lia). destruct O' as [O'|O']; [left|right]; (split; [exact O'|]).
          - destruct (U3 _ _ _ _ _ _ _ T1 ltac:(lia) y z O' E) as [K|K]; [congruence|exact K].
          - destruct (U3 _ _ _ _ _ _ _ T2 ltac:(lia) y z O' E) as [K|K]; [congruence|exact K]. }
        destruct (Nat.eq_dec c lo) as [ ->|Nl]; [apply (dom_one _ b); intros p Vp E; destruct (CL p lo Vp E Sc ltac:(lia)) as [K|[K|[K|[K|K]]]]; lia|].
        destruct (Nat.eq_dec c (S lo)) as [ ->|Ns]; [apply (dom_one _ b); intros p Vp E; destruct (CL p (S lo) Vp E Sc ltac:(lia)) as [K|[K|[K|[K|K]]]]; lia|].
        destruct (Nat.eq_dec c m) as [ ->|Nc].
        + apply (dom_two m b ia ea (fun y => y = lo \/ S (S lo) <= y < m1) (fun y => y = S lo \/ m1 <= y < m)); try lia.
          * unfold AccBfs.edge. rewrite Eb. cbn. auto.
          * intros p Vp E. destruct (CL p m Vp E Sc ltac:(lia)) as [K|[K|[K|[K|K]]]]; lia.
          * intros y z Vy Zz Sz E. destruct (CL y z Vy E Sz ltac:(lia)) as [K|[K|[K|[K|K]]]]; unfold own2 in *; lia.
          * intros y z Vy Zz Sz E. destruct (CL y z Vy E Sz ltac:(lia)) as [K|[K|[K|[K|K]]]]; unfold own2 in *; lia.
          * intros Vb Vi. destruct (Hprev b _ _ _ _ _ _ _ _ (VW _ Vb) Eb Sc) as [P1 [P2 _]].
            apply (branch_calm _ _ _ _ _ _ T1); [lia|apply F1|exact Ql1|exact (P1 (VW _ Vi))].
          * intros Vb Vi. destruct (Hprev b _ _ _ _ _ _ _ _ (VW _ Vb) Eb Sc) as [P1 [P2 _]].
            apply (branch_calm _ _ _ _ _ _ T2); [lia|apply F2|exact Ql2|exact (P2 (VW _ Vi))].
        + assert (O : S (S lo) <= c < m1 \/ m1 <= c < m) by lia. destruct O as [O|O].
          * apply IH1; [lia|exact NJ1| |lia|exact Sc]. intros y z Vy E Sz Hz. destruct (CL y z Vy E Sz ltac:(lia)) as [K|[K|[K|[K|K]]]]; try lia; tauto.
          * apply IH2; [lia|exact NJ2| |lia|exact Sc]. intros y z Vy E Sz Hz. destruct (CL y z Vy E Sz ltac:(lia)) as [K|[K|[K|[K|K]]]]; try lia; tauto.
      - (* switch *) intros brk e cs bs lo hi b i Fb Eb Tr IH Nm Sm L NJ In_ c Hc Sc.
        cbn in NJ. apply andb_true_iff in NJ. destruct NJ as [Ql NJ].
        pose proof (X4 _ _ _ _ _ _ Tr) as Y. pose proof (trcs_heads _ _ _ _ _ _ Tr) as HB.
        assert (EB : forall z, edge b z -> z = lo \/ In z (map snd bs)).
        { intros z. unfold AccBfs.edge. rewrite Eb. cbn. intros H. apply in_app_or in H. destruct H as [H|[[= ->]|[]]]; [|auto]. apply in_map_iff in H.
          destruct H as [k [[= <-] H]]. right. apply in_map_iff. now exists k. }
        destruct (Nat.eq_dec c lo) as [ ->|Nl].
        + intros p1 p2 V1 E1 V2 E2. exists b. rewrite Sc in Sm. symmetry in Sm. apply negb_false_iff in Sm.
          change (timeless (SSwitch e cs)) with (forallb (fun c => timelesss (snd c)) cs) in Sm.
          rewrite Sm in Ql. cbn in Ql.
          assert (CA : ~ (S lo <= h < hi)).
          { intros Hh. destruct (calm_ok G Lb nounres T HT) as [_ [_ [_ C]]]. destruct (C _ _ _ _ _ _ Tr Sm) as [K _].
            - change (forallb (fun c => timelesss (snd c)) cs = true) in Sm. clear - Ql Sm. induction cs as [|[v l] cs IHc]; cbn in *; [intros n []|]. apply andb_true_iff in Ql, Sm. destruct Ql as [Q1 Q2], Sm as [S1 S2].
              intros n Hn. apply in_app_or in Hn. destruct Hn as [Hn|Hn]; [now apply (quiet_of T l Q1 S1)|now apply (IHc S2 Q2)].
            - specialize (K h Hh). congruence. }
          assert (ALL : forall p, V p -> edge p lo -> dm b lo p).
          { intros p Vp E. pose proof (In_ p lo Vp E Sc ltac:(lia)) as O. destruct (Nat.eq_dec p b) as [ ->|Nb]; [now left|]. right.
            split; [unfold AccBfs.edge; rewrite Eb; cbn; apply in_or_app; right; now left|]. exists (fun y => S lo <= y < hi).
            split; [unfold own2 in O; lia|]. split; [exact CA|]. intros y z Vy Hz Sz E'. pose proof (In_ y z Vy E' Sz ltac:(lia)) as O'. unfold own2 in O'. lia. }
          split; apply ALL; assumption.
        + apply (IH NJ b); [lia|lia| | |lia|exact Sc].
          * intros z Hz E. destruct (EB z E) as [ ->|K]; [lia|exact K].
          * intros y z Vy E Sz Hz. pose proof (In_ y z Vy E Sz ltac:(lia)) as O. unfold own2 in O. lia.
      - (* while *) intros brk e l lo hi b i il Fb Nb Sl Kl Fl El F1 Kf Sa Tr IH Fi Ni L NJ In_ c Hc Sc.
        destruct (X3 _ _ _ _ _ _ _ Tr) as [Y1 Y2].
        assert (EB : forall z, edge lo z -> z = S lo \/ z = S (S lo)) by (intros z; unfold AccBfs.edge; rewrite El; intros [[= ->]|[[= ->]|[]]]; auto).
        assert (CL : forall y z, V y -> edge y z -> b_state (G z) = false -> lo <= z < hi ->
          (y = lo /\ (z = S lo \/ z = S (S lo))) \/ (own2 (S (S (S lo))) hi (S lo) il y /\ S (S (S lo)) <= z < hi)).
        { intros y z Vy E Sz Hz. pose proof (In_ y z Vy E Sz Hz) as O. unfold own2 in O.
          destruct (Nat.eq_dec y b) as [ ->|N0]; [rewrite (edge_next _ _ _ Nb E) in Sz; congruence|].
          destruct (Nat.eq_dec y il) as [ ->|N1]; [rewrite (edge_next _ _ _ Ni E) in Sz; congruence|].
          destruct (Nat.eq_dec y lo) as [ ->|N2]; [left; auto|]. right.
          assert (O' : own2 (S (S (S lo))) hi (S lo) il y) by (unfold own2; lia). split; [exact O'|].
          destruct (U3 _ _ _ _ _ _ _ Tr ltac:(lia) y z O' E) as [K|K]; [congruence|exact K]. }
        destruct (Nat.eq_dec c lo) as [ ->|Nl]; [congruence|].
        destruct (Nat.eq_dec c (S lo)) as [ ->|Ns]; [apply (dom_one _ lo); intros p Vp E; destruct (CL p _ Vp E Sc ltac:(lia)) as [K|K]; lia|].
        destruct (Nat.eq_dec c (S (S lo))) as [ ->|Nc]; [apply (dom_one _ lo); intros p Vp E; destruct (CL p _ Vp E Sc ltac:(lia)) as [K|K]; lia|].
        apply IH; [lia|exact NJ| |lia|exact Sc]. intros y z Vy E Sz Hz. destruct (CL y z Vy E Sz ltac:(lia)) as [K|K]; [lia|tauto].
      - intros t lo b i Fb Nb St F L NJ In_ c Hc Sc. assert (c = lo) by lia. subst c. apply (dom_one _ b). intros p Vp E. pose proof (In_ p lo Vp E Sc ltac:(lia)) as O. unfold own2 in O. lia.
      - intros brk lo b i Fb Nb St K L NJ In_ c Hc Sc. assert (c = lo) by lia. subst c. congruence.
      - intros brk n lo b i Fb Nb K Hl L NJ In_ c Hc Sc. assert (c = lo) by lia. subst c. apply (dom_one _ b). intros p Vp E. pose proof (In_ p lo Vp E Sc ltac:(lia)) as O. unfold own2 in O. lia.
      - intros brk n lo b i Fb Nb F L NJ In_ c Hc Sc. assert (c = lo) by lia. subst c. apply (dom_one _ b). intros p Vp E. pose proof (In_ p lo Vp E Sc ltac:(lia)) as O. unfold own2 in O. lia.
      - intros brk d rb lo b i rest Fb Nb Sl Kl Fl El Sn Kn Hi L NJ In_ c Hc Sc. assert (O : c = lo \/ c = S lo) by lia. destruct O; subst c; congruence.
      - intros; lia.
      - intros brk x r0 lo m hi b i b1 i1 b2 i2 T1 IH1 T2 IH2 L NJ In_ c Hc Sc. cbn in NJ. apply andb_true_iff in NJ. destruct NJ as [NJ1 NJ2].
        destruct (X1 _ _ _ _ _ _ _ _ T1) as [Y1 Y2]. destruct (X2 _ _ _ _ _ _ _ _ T2) as [Y3 Y4].
        assert (L1 : b1 < m) by lia.
        assert (CL : forall y z, V y -> edge y z -> b_state (G z) = false -> lo <= z < hi -> (own2 lo m b b1 y /\ lo <= z < m) \/ (own2 m hi b1 b2 y /\ m <= z < hi)).
        { intros y z Vy E Sz Hz. pose proof (In_ y z Vy E Sz Hz) as O. assert (O' : own2 lo m b b1 y \/ own2 m hi b1 b2 y) by (unfold own2 in *; lia).
          destruct O' as [O'|O']; [left|right]; (split; [exact O'|]).
          - destruct (U1 _ _ _ _ _ _ _ _ T1 L y z O' E) as [K|K]; [congruence|exact K].
          - destruct (U2 _ _ _ _ _ _ _ _ T2 L1 y z O' E) as [K|K]; [congruence|exact K]. }
        assert (O : lo <= c < m \/ m <= c < hi) by lia. destruct O as [O|O].
        + apply IH1; [lia|exact NJ1| |lia|exact Sc]. intros y z Vy E Sz Hz. destruct (CL y z Vy E Sz ltac:(lia)) as [K|K]; [tauto|lia].
        + apply IH2; [lia|exact NJ2| |lia|exact Sc]. intros y z Vy E Sz Hz. destruct (CL y z Vy E Sz ltac:(lia)) as [K|K]; [lia|tauto].
      - intros brk l lo m b i a j Fb Nb F1 Tr IH Fa Na F2 L NJ In_ c Hc Sc. destruct (X2 _ _ _ _ _ _ _ _ Tr) as [Y1 Y2].
        assert (CL : forall y z, V y -> edge y z -> b_state (G z) = false -> lo <= z < S m -> (y = b /\ z = lo) \/ (y = a /\ z = m) \/ (own2 (S lo) m lo a y /\ S lo <= z < m)).
        { intros y z Vy E Sz Hz. pose proof (In_ y z Vy E Sz Hz) as O. unfold own2 in O.
          destruct (Nat.eq_dec y b) as [ ->|N0]; [left; split; [reflexivity|now apply (edge_next _ _ _ Nb)]|]. right.
          destruct (Nat.eq_dec y a) as [ ->|N1]; [left; split; [reflexivity|now apply (edge_next _ _ _ Na)]|]. right.
          assert (O' : own2 (S lo) m lo a y) by (unfold own2; lia). split; [exact O'|].
          destruct (U2 _ _ _ _ _ _ _ _ Tr ltac:(lia) y z O' E) as [K|K]; [congruence|exact K]. }
        destruct (Nat.eq_dec c lo) as [ ->|Nl]; [apply (dom_one _ b); intros p Vp E; destruct (CL p _ Vp E Sc ltac:(lia)) as [K|[K|K]]; lia|].
        destruct (Nat.eq_dec c m) as [ ->|Nm]; [apply (dom_one _ a); intros p Vp E; destruct (CL p _ Vp E Sc ltac:(lia)) as [K|[K|K]]; lia|].
        apply IH; [lia|exact NJ| |lia|exact Sc]. intros y z Vy E Sz Hz. destruct (CL y z Vy E Sz ltac:(lia)) as [K|[K|K]]; [lia|lia|tauto].
      - intros; lia.
      - intros brk af v l cs bs lo m hi a F Tr IH Fa Na T2 IH2 NJ hd Ha Hd HB In_ c Hc Sc. cbn in NJ. apply andb_true_iff in NJ. destruct NJ as [NJ1 NJ2].
        destruct (X3 _ _ _ _ _ _ _ Tr) as [Y1 Y2]. pose proof (X4 _ _ _ _ _ _ T2) as Y3. pose proof (trcs_heads _ _ _ _ _ _ T2) as HB2. cbn [map snd] in HB.
        assert (CL : forall y z, V y -> edge y z -> b_state (G z) = false -> lo <= z < hi ->
          (y = hd /\ z = lo) \/ (own2 (S lo) m lo a y /\ S lo <= z < m) \/ ((m <= y < hi \/ y = hd) /\ m <= z < hi)).
        { intros y z Vy E Sz Hz. pose proof (In_ y z Vy E Sz Hz) as O. destruct O as [O| ->].
          - destruct (le_lt_dec m y) as [K|K].
            + right; right. split; [lia|]. destruct (U4 _ _ _ _ _ _ T2 ltac:(lia) y z ltac:(lia) E) as [J|[J|J]]; [congruence|exact J|lia].
            + destruct (Nat.eq_dec y a) as [ ->|N1]; [rewrite (edge_next _ _ _ Na E) in Hz; lia|]. right; left.
              assert (O' : own2 (S lo) m lo a y) by (unfold own2; lia). split; [exact O'|].
              destruct (U3 _ _ _ _ _ _ _ Tr ltac:(lia) y z O' E) as [J|J]; [congruence|exact J].
          - destruct (HB z Hz E) as [ <-|K]; [left; auto|right; right; split; [now right|now apply HB2]]. }
        destruct (Nat.eq_dec c lo) as [ ->|Nl]; [apply (dom_one _ hd); intros p Vp E; destruct (CL p _ Vp E Sc ltac:(lia)) as [K|[K|K]]; lia|].
        assert (O : S lo <= c < m \/ m <= c < hi) by lia. destruct O as [O|O].
        + apply IH; [lia|exact NJ1| |lia|exact Sc]. intros y z Vy E Sz Hz. destruct (CL y z Vy E Sz ltac:(lia)) as [K|[K|K]]; [lia|tauto|lia].
        + apply (IH2 NJ2 hd); [lia|lia| | |lia|exact Sc].
          * intros z Hz E. destruct (HB z ltac:(lia) E) as [ <-|K]; [lia|exact K].
          * intros y z Vy E Sz Hz. destruct (CL y z Vy E Sz ltac:(lia)) as [K|[K|K]]; [lia|lia|tauto].
    Qed.
  End Head.
End Dom.

(** For the graph of an algorithm. *)
Theorem good_dom fuel unit p s g r c ic h i : Good fuel (body unit p) s g r c ic -> nojumps (gotoss p) p = true -> r_sid r h = Some i ->
  forall x p1 p2, b_state (g x) = false -> x <> h -> rch g h p1 -> edge g p1 x -> rch g h p2 -> edge g p2 x -> exists d, dm g h d x p1 /\ dm g h d x p2.
Proof.
  intros O NJ Hi x p1 p2 Sx Nx V1 E1 V2 E2.
  pose proof (o_ren _ _ _ _ _ _ _ O) as REN. pose proof (o_unres _ _ _ _ _ _ _ O) as UN.
  destruct (n_sid _ _ _ REN h i Hi) as [Vh [Sh _]].
  assert (VW : forall y, rch g h y -> In y (r_vis r)).
  { intros y H. induction H as [|q y Hq IH E Sy]; [exact Vh|]. destruct (n_child _ _ _ REN q (Some y) IH E) as [c' [[= <-] [z [Z1 Z2]]]]. unfold tgt in Z1. rewrite Sy in Z1. now injection Z1 as <-. }
  assert (OW : forall y, own2 1 (g_next s) 0 c y \/ b_end (g y) = ENone).
  { intros y. destruct (Nat.eq_dec y c) as [ ->|N]; [right; exact (o_end _ _ _ _ _ _ _ O)|].
    destruct (le_lt_dec (g_next s) y) as [L|L]; [right; exact (o_out _ _ _ _ _ _ _ O y L)|left; unfold own2; lia]. }
  destruct (dom_ok g (LbOf s) UN (gotoss (body unit p)) (o_lbl _ _ _ _ _ _ _ O) h Sh (fun y => In y (r_vis r)) VW (o_prev _ _ _ _ _ _ _ O)) as [_ [DO _]].
  assert (OE : forall y z, edge g y z -> own2 1 (g_next s) 0 c y).
  { intros y z E. destruct (OW y) as [K|K]; [exact K|]. unfold edge in E. rewrite K in E. destruct E. }
  destruct (out_ok g (LbOf s) UN) as [_ [U2 _]].
  apply (DO _ _ _ _ _ _ _ _ (o_tr _ _ _ _ _ _ _ O)); auto; try lia.
  - rewrite body_nojump. rewrite <- NJ. clear.
    assert (E : forall n, memb n (gotoss (body unit p)) = memb n (gotoss p)).
    { intros n. destruct (memb n (gotoss p)) eqn:M; [apply memb_In; apply body_gotos; now apply memb_In|].
      apply memb_notIn. rewrite body_gotos. now apply memb_notIn. }
    apply (nojumps_ext _ _ E).
  - intros y z _ E _ _. eapply OE. exact E.
  - destruct (U2 _ _ _ _ _ _ _ _ (o_tr _ _ _ _ _ _ _ O) ltac:(lia) p1 x (OE _ _ E1) E1) as [K|K]; [congruence|exact K].
Qed.
