(** Facts on the numbering of the states. *)
From Coq Require Import List Bool Arith ZArith Lia.
Import ListNotations.
From Verif Require Import FsmModel FsmEmit FsmLayout FsmGather.

Lemma fset_same {A} (f : nat -> A) k v : fset f k v k = v.
Proof. unfold fset. now rewrite Nat.eqb_refl. Qed.
Lemma fset_other {A} (f : nat -> A) k v x : x <> k -> fset f k v x = f x.
Proof. intros N. unfold fset. destruct (Nat.eqb_spec x k); [contradiction|reflexivity]. Qed.

Section Ren.
  Variable ff : nat.
  Variable g : graph.

  (** The block standing for a child. *)
  Definition tgt (c y : nat) : Prop := (if b_state (g c) then fast_forward ff g c else Some c) = Some y.

  Definition inq (q : list (nat * option nat)) (b : nat) : Prop := exists p, In (b, p) q.

  Record RInv (q : list (nat * option nat)) (r : rst) : Prop := {
    ri_q : forall b, inq q b -> In b (r_vis r);
    ri_nd : NoDup (map fst q);
    ri_qsid : forall b, inq q b -> r_sid r b = None;
    ri_done : forall b, In b (r_vis r) -> ~ inq q b ->
      (forall c, In c (children (b_end (g b))) -> exists c', c = Some c' /\ exists y, tgt c' y /\ In y (r_vis r)) /\
      (b_state (g b) = true -> exists i, r_sid r b = Some i) /\ r_par r b <> None;
    ri_par : forall b, r_par r b <> None -> In b (r_vis r);
    ri_sid : forall b i, r_sid r b = Some i -> In b (r_vis r) /\ b_state (g b) = true /\ 1 <= i < r_max r /\ r_par r b = Some i;
    ri_inj : forall b c i, r_sid r b = Some i -> r_sid r c = Some i -> b = c;
    ri_sur : forall i, 1 <= i < r_max r -> exists b, r_sid r b = Some i;
    ri_qpar : forall b p, In (b, p) q -> b <> 0 -> p <> None /\ r_par r b = p;
    ri_qzero : forall p, In (0, p) q -> b_state (g 0) = true;
    ri_max : 1 <= r_max r
  }.

  Definition Closed (P : nat -> Prop) : Prop := forall b c y, P b -> In (Some c) (children (b_end (g b))) -> tgt c y -> P y.

  Lemma push_ok p : forall cs q r q2 r2, push_children ff g p cs q r = Some (q2, r2) ->
    NoDup (map fst q) -> (forall b, inq q b -> In b (r_vis r)) ->
    exists nw, q2 = q ++ nw /\ (forall b x, In (b, x) nw -> x = p /\ x <> None) /\ NoDup (map fst (q ++ nw)) /\
      (forall b, In b (r_vis r2) <-> In b (r_vis r) \/ In b (map fst nw)) /\ (forall b, In b (map fst nw) -> ~ In b (r_vis r)) /\
      (forall c, In c cs -> exists c', c = Some c' /\ exists y, tgt c' y /\ In y (r_vis r2)) /\
      r_sid r2 = r_sid r /\ r_max r2 = r_max r /\
      (forall b, In b (map fst nw) -> r_par r2 b = p) /\ (forall b, ~ In b (map fst nw) -> r_par r2 b = r_par r b) /\
      (forall b, In b (map fst nw) -> exists c, In (Some c) cs /\ tgt c b).
  Proof.
    induction cs as [|[c|] cs IH]; intros q r q2 r2 H ND HQ; cbn [push_children] in H; [| |discriminate].
    - injection H as <- <-. exists []. rewrite app_nil_r. cbn. split; [reflexivity|]. split; [intros ? ? []|]. split; [exact ND|].
      split; [tauto|]. split; [intros ? []|]. split; [intros ? []|]. split; [reflexivity|]. split; [reflexivity|]. split; [intros ? []|]. split; [reflexivity|]. intros ? [].
    - unfold obind in H. destruct (if b_state (g c) then fast_forward ff g c else Some c) as [c'|] eqn:T; [|discriminate].
      destruct (memb c' (r_vis r)) eqn:M.
      + destruct (IH _ _ _ _ H ND HQ) as [nw [A1 [A2 [A3 [A4 [A5 [A6 [A7 [A8 [A9 [A10 A11]]]]]]]]]]]. exists nw.
        split; [exact A1|]. split; [exact A2|]. split; [exact A3|]. split; [exact A4|]. split; [exact A5|]. split.
        { intros x [ <-|Hx]; [|now apply A6]. exists c. split; [reflexivity|]. exists c'. split; [exact T|]. apply A4. left. now apply memb_In. }
        split; [exact A7|]. split; [exact A8|]. split; [exact A9|]. split; [exact A10|].
        intros b Hb. destruct (A11 b Hb) as [k [K1 K2]]. exists k. split; [now right|exact K2].
      + destruct p as [p|]; [|discriminate]. apply memb_notIn in M.
        assert (Nq : ~ In c' (map fst q)). { intros Hc. apply in_map_iff in Hc. destruct Hc as [[x y] [E1 E2]]. cbn in E1. subst x. apply M. apply HQ. now exists y. }
        destruct (IH _ _ _ _ H) as [nw [A1 [A2 [A3 [A4 [A5 [A6 [A7 [A8 [A9 [A10 A11]]]]]]]]]]].
        * rewrite map_app. cbn [map fst]. clear - ND Nq. induction (map fst q) as [|a l IHl]; cbn; [constructor; [intros []|constructor]|].
          inversion ND; subst. constructor; [|apply IHl; [assumption|intros X; apply Nq; now right]]. intros X. apply in_app_or in X. destruct X as [X|[X|[]]]; [contradiction|].
          subst. apply Nq. now left.
        * intros b [x Hx]. cbn. apply in_app_or in Hx. destruct Hx as [Hx|[[= <- <-]|[]]]; [right; apply HQ; now exists x|now left].
        * cbn in A4, A5, A7, A8, A10. exists ((c', Some p) :: nw). rewrite <- app_assoc in A1, A3. cbn in A1, A3.
          split; [exact A1|]. split; [intros b x [[= <- <-]|Hx]; [split; [reflexivity|discriminate]|now apply (A2 b)]|]. split; [exact A3|].
          split.
          { intros b. rewrite A4. cbn. tauto. }
          split.
          { intros b [ <-|Hb]; [exact M|]. intros X. apply (A5 b Hb). now right. }
          split.
          { intros x [ <-|Hx]; [|now apply A6]. exists c. split; [reflexivity|]. exists c'. split; [exact T|]. apply A4. left. now left. }
          split; [exact A7|]. split; [exact A8|]. split.
          { intros b [ <-|Hb]; [|now apply A9]. cbn [fst]. rewrite A10; [apply fset_same|]. intros X. apply (A5 c' X). now left. }
          split.
          { intros b Hb. cbn in Hb. rewrite A10 by tauto. apply fset_other. intros ->. apply Hb. now left. }
          intros b [ <-|Hb]; [exists c; split; [now left|exact T]|]. destruct (A11 b Hb) as [k [K1 K2]]. exists k. split; [now right|exact K2].
  Qed.

  Lemma nodup_fst (b : nat) (p : option nat) q : NoDup (map fst ((b, p) :: q)) -> ~ inq q b.
  Proof. cbn. intros H [x Hx]. inversion H; subst. apply H2. apply in_map_iff. exists (b, x). auto. Qed.

  Lemma renum_ok : forall f q r r', renumber_loop f ff g q r = Some r' -> RInv q r -> (forall b, b = 0 -> In 0 (r_vis r)) ->
    RInv [] r' /\ (forall P, Closed P -> (forall b, In b (r_vis r) -> P b) -> forall b, In b (r_vis r') -> P b) /\ incl (r_vis r) (r_vis r').
  Proof.
    induction f as [|f IH]; intros [|[b p] q] r r' H I Z; cbn [renumber_loop] in H.
    - injection H as <-. split; [exact I|]. split; [auto|apply incl_refl].
    - discriminate.
    - injection H as <-. split; [exact I|]. split; [auto|apply incl_refl].
    - assert (Vb : In b (r_vis r)) by (apply (ri_q _ _ I); exists p; now left).
      assert (Nb : ~ inq q b) by (apply nodup_fst with p; exact (ri_nd _ _ I)).
      assert (NDq : NoDup (map fst q)) by (pose proof (ri_nd _ _ I) as X; cbn in X; now inversion X).
      assert (Sb : r_sid r b = None) by (apply (ri_qsid _ _ I); exists p; now left).
      assert (HQ : forall x, inq q x -> In x (r_vis r)) by (intros x [y Hy]; apply (ri_q _ _ I); exists y; now right).
      destruct (b_state (g b)) eqn:S.
      + rewrite Sb in H. unfold obind in H.
        set (r1 := {| r_sid := fset (r_sid r) b (Some (r_max r)); r_par := fset (r_par r) b (Some (r_max r)); r_max := Datatypes.S (r_max r); r_vis := r_vis r |}) in *.
        destruct (push_children ff g (Some (r_max r)) (children (b_end (g b))) q r1) as [[q2 r2]|] eqn:PC; [|discriminate].
        destruct (push_ok _ _ _ _ _ _ PC NDq) as [nw [A1 [A2 [A3 [A4 [A5 [A6 [A7 [A8 [A9 [A10 A11]]]]]]]]]]]; [exact HQ|].
        unfold r1 in A4, A5, A7, A8, A10; cbn in A4, A5, A7, A8, A10.
        assert (NW : forall x, In x (map fst nw) -> r_sid r x = None /\ r_par r x = None /\ x <> b).
        { intros x Hx. pose proof (A5 x Hx) as X. split; [|split].
          - destruct (r_sid r x) eqn:Es; [|reflexivity]. exfalso. apply X. now apply (ri_sid _ _ I) in Es.
          - destruct (r_par r x) eqn:Es; [|reflexivity]. exfalso. apply X. apply (ri_par _ _ I). congruence.
          - intros ->. contradiction. }
        assert (INQ : forall x, inq q2 x <-> inq q x \/ In x (map fst nw)).
        { intros x. subst q2. unfold inq. split.
          - intros [y Hy]. apply in_app_or in Hy. destruct Hy; [left; now exists y|right; apply in_map_iff; now exists (x, y)].
          - intros [[y Hy]|Hx]; [exists y; apply in_or_app; now left|]. apply in_map_iff in Hx. destruct Hx as [[a y] [E1 E2]]. cbn in E1. subst a. exists y. apply in_or_app. now right. }
        assert (I2 : RInv q2 r2).
        { constructor.
          - intros x Hx. apply INQ in Hx. apply A4. destruct Hx as [Hx|Hx]; [left; now apply HQ|now right].
          - subst q2. exact A3.
          - intros x Hx. rewrite A7. apply INQ in Hx. destruct Hx as [Hx|Hx].
            + rewrite fset_other by (intros ->; contradiction). apply (ri_qsid _ _ I). destruct Hx as [y Hy]. exists y. now right.
            + destruct (NW x Hx) as [X1 [_ X3]]. now rewrite fset_other.
          - intros x Vx Nx. rewrite INQ in Nx. apply A4 in Vx. destruct Vx as [Vx|Vx]; [|tauto].
            destruct (Nat.eq_dec x b) as [ ->|Nxb].
            + split; [exact A6|]. split; [intros _; exists (r_max r); rewrite A7; apply fset_same|].
              rewrite A10; [rewrite fset_same; discriminate|]. intros X. now destruct (NW b X) as [_ [_ X3]].
            + destruct (ri_done _ _ I x Vx) as [D1 [D2 D3]].
              { intros [y [[= -> ->]|Hy]]; [congruence|]. apply Nx. left. now exists y. }
              split; [|split].
              * intros c Hc. destruct (D1 c Hc) as [c' [E1 [y [E2 E3]]]]. exists c'. split; [exact E1|]. exists y. split; [exact E2|]. apply A4. now left.
              * intros Sx. rewrite A7, fset_other by exact Nxb. now apply D2.
              * rewrite A10 by tauto. now rewrite fset_other.
          - intros x Px. apply A4. destruct (in_dec Nat.eq_dec x (map fst nw)) as [X|X]; [now right|left].
            rewrite A10 in Px by exact X. destruct (Nat.eq_dec x b) as [ ->|Nxb]; [exact Vb|]. rewrite fset_other in Px by exact Nxb. now apply (ri_par _ _ I).
          - intros x i Hx. rewrite A7 in Hx. rewrite A8. destruct (Nat.eq_dec x b) as [ ->|Nxb].
            + rewrite fset_same in Hx. injection Hx as <-. split; [apply A4; now left|]. split; [exact S|]. split; [pose proof (ri_max _ _ I); lia|].
              rewrite A10; [apply fset_same|]. intros X. now destruct (NW b X) as [_ [_ X3]].
            + rewrite fset_other in Hx by exact Nxb. destruct (ri_sid _ _ I x i Hx) as [B1 [B2 [B3 B4]]]. split; [apply A4; now left|]. split; [exact B2|]. split; [lia|].
              rewrite A10; [now rewrite fset_other|]. intros X. destruct (NW x X) as [X1 _]. congruence.
          - intros x y i Hx Hy. rewrite A7 in Hx, Hy. destruct (Nat.eq_dec x b) as [ ->|Nxb], (Nat.eq_dec y b) as [ ->|Nyb]; [reflexivity| | |].
            + rewrite fset_same in Hx. rewrite fset_other in Hy by exact Nyb. injection Hx as <-. destruct (ri_sid _ _ I y _ Hy) as [_ [_ [X _]]]. lia.
            + rewrite fset_same in Hy. rewrite fset_other in Hx by exact Nxb. injection Hy as <-. destruct (ri_sid _ _ I x _ Hx) as [_ [_ [X _]]]. lia.
            + rewrite fset_other in Hx, Hy by assumption. exact (ri_inj _ _ I x y i Hx Hy).
          - intros i Hi. rewrite A8 in Hi. rewrite A7. destruct (Nat.eq_dec i (r_max r)) as [ ->|Ni]; [exists b; apply fset_same|].
            destruct (ri_sur _ _ I i) as [x Hx]; [lia|]. exists x. rewrite fset_other; [exact Hx|]. intros ->. congruence.
          - intros x p' Hx Nx. subst q2. apply in_app_or in Hx. destruct Hx as [Hx|Hx].
            + destruct (ri_qpar _ _ I x p' ltac:(now right) Nx) as [X1 X2]. split; [exact X1|]. rewrite A10, fset_other; [exact X2| |].
              * intros ->. apply Nb. now exists p'.
              * intros X. destruct (NW x X) as [_ [Y _]]. congruence.
            + destruct (A2 x p' Hx) as [-> X2]. split; [exact X2|]. apply A9. apply in_map_iff. exists (x, Some (r_max r)). auto.
          - intros p' Hx. subst q2. apply in_app_or in Hx. destruct Hx as [Hx|Hx]; [apply (ri_qzero _ _ I p'); now right|].
            exfalso. apply (A5 0); [apply in_map_iff; now exists (0, p')|]. apply (Z 0). reflexivity.
          - rewrite A8. lia. }
        destruct (IH _ _ _ H I2) as [J1 [J2 J3]]; [intros x ->; apply A4; left; now apply (Z 0)|]. split; [exact J1|]. split.
        * intros P C HP. apply J2; [exact C|]. intros x Hx. apply A4 in Hx. destruct Hx as [Hx|Hx]; [now apply HP|]. destruct (A11 x Hx) as [c [C1 C2]]. exact (C b c x (HP b Vb) C1 C2).
        * intros x Hx. apply J3. apply A4. now left.
      + unfold obind in H. destruct (push_children ff g p (children (b_end (g b))) q r) as [[q2 r2]|] eqn:PC; [|discriminate].
        destruct (push_ok _ _ _ _ _ _ PC NDq HQ) as [nw [A1 [A2 [A3 [A4 [A5 [A6 [A7 [A8 [A9 [A10 A11]]]]]]]]]]].
        assert (N0 : b <> 0). { intros ->. rewrite (ri_qzero _ _ I p) in S; [discriminate|now left]. }
        assert (NW : forall x, In x (map fst nw) -> r_sid r x = None /\ r_par r x = None /\ x <> b).
        { intros x Hx. pose proof (A5 x Hx) as X. split; [|split].
          - destruct (r_sid r x) eqn:Es; [|reflexivity]. exfalso. apply X. now apply (ri_sid _ _ I) in Es.
          - destruct (r_par r x) eqn:Es; [|reflexivity]. exfalso. apply X. apply (ri_par _ _ I). congruence.
          - intros ->. contradiction. }
        assert (INQ : forall x, inq q2 x <-> inq q x \/ In x (map fst nw)).
        { intros x. subst q2. unfold inq. split.
          - intros [y Hy]. apply in_app_or in Hy. destruct Hy; [left; now exists y|right; apply in_map_iff; now exists (x, y)].
          - intros [[y Hy]|Hx]; [exists y; apply in_or_app; now left|]. apply in_map_iff in Hx. destruct Hx as [[a y] [E1 E2]]. cbn in E1. subst a. exists y. apply in_or_app. now right. }
        assert (I2 : RInv q2 r2).
        { constructor.
          - intros x Hx. apply INQ in Hx. apply A4. destruct Hx as [Hx|Hx]; [left; now apply HQ|now right].
          - subst q2. exact A3.
          - intros x Hx. rewrite A7. apply INQ in Hx. destruct Hx as [[y Hy]|Hx].
            + apply (ri_qsid _ _ I). exists y. now right.
            + now destruct (NW x Hx) as [X1 _].
          - intros x Vx Nx. rewrite INQ in Nx. apply A4 in Vx. destruct Vx as [Vx|Vx]; [|tauto].
            destruct (Nat.eq_dec x b) as [ ->|Nxb].
            + split; [exact A6|]. split; [congruence|]. rewrite A10; [|intros X; now destruct (NW b X) as [_ [_ X3]]].
              destruct (ri_qpar _ _ I b p ltac:(now left) N0) as [X1 ->]. exact X1.
            + destruct (ri_done _ _ I x Vx) as [D1 [D2 D3]].
              { intros [y [[= -> ->]|Hy]]; [congruence|]. apply Nx. left. now exists y. }
              split; [|split].
              * intros c Hc. destruct (D1 c Hc) as [c' [E1 [y [E2 E3]]]]. exists c'. split; [exact E1|]. exists y. split; [exact E2|]. apply A4. now left.
              * intros Sx. rewrite A7. now apply D2.
              * now rewrite A10 by tauto.
          - intros x Px. apply A4. destruct (in_dec Nat.eq_dec x (map fst nw)) as [X|X]; [now right|left].
            rewrite A10 in Px by exact X. now apply (ri_par _ _ I).
          - intros x i Hx. rewrite A7 in Hx. rewrite A8. destruct (ri_sid _ _ I x i Hx) as [B1 [B2 [B3 B4]]]. split; [apply A4; now left|]. split; [exact B2|]. split; [lia|].
            rewrite A10; [exact B4|]. intros X. destruct (NW x X) as [X1 _]. congruence.
          - intros x y i Hx Hy. rewrite A7 in Hx, Hy. exact (ri_inj _ _ I x y i Hx Hy).
          - intros i Hi. rewrite A8 in Hi. rewrite A7. now apply (ri_sur _ _ I).
          - intros x p' Hx Nx. subst q2. apply in_app_or in Hx. destruct Hx as [Hx|Hx].
            + destruct (ri_qpar _ _ I x p' ltac:(now right) Nx) as [X1 X2]. split; [exact X1|]. rewrite A10; [exact X2|].
              intros X. destruct (NW x X) as [_ [Y _]]. congruence.
            + destruct (A2 x p' Hx) as [-> X2]. split; [exact X2|]. apply A9. apply in_map_iff. exists (x, p). auto.
          - intros p' Hx. subst q2. apply in_app_or in Hx. destruct Hx as [Hx|Hx]; [apply (ri_qzero _ _ I p'); now right|].
            exfalso. apply (A5 0); [apply in_map_iff; now exists (0, p')|]. apply (Z 0). reflexivity.
          - rewrite A8. exact (ri_max _ _ I). }
        destruct (IH _ _ _ H I2) as [J1 [J2 J3]]; [intros x ->; apply A4; left; now apply (Z 0)|]. split; [exact J1|]. split.
        * intros P C HP. apply J2; [exact C|]. intros x Hx. apply A4 in Hx. destruct Hx as [Hx|Hx]; [now apply HP|]. destruct (A11 x Hx) as [c [C1 C2]]. exact (C b c x (HP b Vb) C1 C2).
        * intros x Hx. apply J3. apply A4. now left.
  Qed.

  (** What the numbering gives. *)
  Record Ren (r : rst) : Prop := {
    n_zero : In 0 (r_vis r);
    n_child : forall b c, In b (r_vis r) -> In c (children (b_end (g b))) -> exists c', c = Some c' /\ exists y, tgt c' y /\ In y (r_vis r);
    n_dead : forall b, dead r b = false <-> In b (r_vis r);
    n_state : forall b, In b (r_vis r) -> b_state (g b) = true -> exists i, r_sid r b = Some i;
    n_sid : forall b i, r_sid r b = Some i -> In b (r_vis r) /\ b_state (g b) = true /\ 1 <= i < r_max r;
    n_inj : forall b c i, r_sid r b = Some i -> r_sid r c = Some i -> b = c;
    n_sur : forall i, 1 <= i < r_max r -> exists b, r_sid r b = Some i;
    n_min : forall P, Closed P -> P 0 -> forall b, In b (r_vis r) -> P b
  }.
  Lemma loop_ren f r : b_state (g 0) = true -> 
    renumber_loop f ff g [(0, None)] {| r_sid := fun _ => None; r_par := fun _ => None; r_max := 1; r_vis := [0] |} = Some r -> Ren r.
  Proof.
    intros S0 H. destruct (renum_ok _ _ _ _ H) as [I [M C]].
    - constructor; cbn; try discriminate; try tauto.
      + intros b [p [[= <- <-]|[]]]. now left.
      + constructor; [intros []|constructor].
      + intros b [ <-|[]] N. exfalso. apply N. exists None. now left.
      + lia.
      + intros b p [[= <- <-]|[]] N. congruence.
      + lia.
    - cbn. tauto.
    - assert (NQ : forall b, ~ inq [] b) by (intros b [p []]).
      assert (Z : In 0 (r_vis r)) by (apply C; now left).
      constructor.
      + exact Z.
      + intros b c Vb. destruct (ri_done _ _ I b Vb (NQ b)) as [D _]. apply D.
      + intros b. unfold dead. split.
        * intros D. apply (ri_par _ _ I). destruct (r_par r b); discriminate.
        * intros Vb. destruct (ri_done _ _ I b Vb (NQ b)) as [_ [_ D]]. destruct (r_par r b); [reflexivity|congruence].
      + intros b Vb. destruct (ri_done _ _ I b Vb (NQ b)) as [_ [D _]]. exact D.
      + intros b i H2. destruct (ri_sid _ _ I b i H2) as [A1 [A2 [A3 _]]]. auto.
      + exact (ri_inj _ _ I).
      + exact (ri_sur _ _ I).
      + intros P HC P0. apply M; [exact HC|]. intros b [ <-|[]]. exact P0.
  Qed.
End Ren.

(** * fastForward *)
Lemma ff_shape f g : forall cur, (forall l, ff_loop f g l cur = None) \/ (forall l, ff_loop f g l cur = Some l) \/ (exists z, forall l, ff_loop f g l cur = Some z).
Proof.
  induction f as [|f IH]; intros cur; cbn [ff_loop]; [now left|].
  destruct (negb (block_empty (g cur))); [right; now left|].
  destruct (b_end (g cur)) as [|[n|]| | | | | |]; try (right; now left); [|now left].
  destruct (b_noskip (g n)); [right; now left|].
  destruct (b_state (g n)); [|apply IH].
  destruct (IH n) as [H|[H|[z H]]]; [left; auto|right; right; exists n; auto|right; right; exists z; auto].
Qed.

Lemma ff_fuel g : forall f f' l cur y, ff_loop f g l cur = Some y -> f <= f' -> ff_loop f' g l cur = Some y.
Proof.
  induction f as [|f IH]; intros [|f'] l cur y H L; cbn [ff_loop] in *; try discriminate; try lia.
  destruct (negb (block_empty (g cur))); [exact H|]. destruct (b_end (g cur)) as [|[n|]| | | | | |]; try exact H.
  destruct (b_noskip (g n)); [exact H|]. apply IH; [exact H|lia].
Qed.
Lemma fast_forward_fuel g f f' b y : fast_forward f g b = Some y -> f <= f' -> fast_forward f' g b = Some y.
Proof. unfold fast_forward. destruct (b_noskip (g b)); [auto|apply ff_fuel]. Qed.

Lemma ff_ext g g' : (forall x, g x = g' x) -> forall f l cur, ff_loop f g l cur = ff_loop f g' l cur.
Proof.
  intros E. induction f as [|f IH]; intros l cur; cbn [ff_loop]; [reflexivity|]. rewrite <- E.
  destruct (negb (block_empty (g cur))); [reflexivity|]. destruct (b_end (g cur)) as [|[n|]| | | | | |]; try reflexivity.
  rewrite <- E. destruct (b_noskip (g n)); [reflexivity|apply IH].
Qed.
Lemma tgt_ext g g' ff c y : (forall x, g x = g' x) -> tgt ff g c y -> tgt ff g' c y.
Proof.
  intros E. unfold tgt, fast_forward. rewrite <- E. intros <-. destruct (b_state (g c)); [|reflexivity]. destruct (b_noskip (g c)); [reflexivity|].
  symmetry. now apply ff_ext.
Qed.
Lemma ren_ext g g' ff r : (forall x, g x = g' x) -> Ren ff g r -> Ren ff g' r.
Proof.
  intros E N. assert (E' : forall x, g' x = g x) by (intros x; now rewrite E). constructor; try (destruct N; assumption).
  - intros b c Vb Hc. rewrite <- E in Hc. destruct (n_child _ _ _ N b c Vb Hc) as [c' [C1 [y [Y1 Y2]]]]. exists c'. split; [exact C1|]. exists y. split; [now apply (tgt_ext g)|exact Y2].
  - intros b. rewrite <- E. apply (n_state _ _ _ N).
  - intros b. rewrite <- E. apply (n_sid _ _ _ N).
  - intros P C. apply (n_min _ _ _ N). intros b c y Pb Hc T. apply (C b c y Pb); [rewrite <- E; exact Hc|now apply (tgt_ext g)].
Qed.

(** Turning more blocks into states visits no more blocks. *)
Section Mono.
  Variables (g g2 : graph) (ff : nat) (V : nat -> Prop).
  Hypothesis Hend : forall x, b_end (g2 x) = b_end (g x).
  Hypothesis Hins : forall x, b_ins (g2 x) = b_ins (g x).
  Hypothesis Hnsk : forall x, b_noskip (g2 x) = b_noskip (g x).
  Hypothesis Hst : forall x, b_state (g x) = true -> b_state (g2 x) = true.
  Hypothesis HV : forall b c, V b -> In (Some c) (children (b_end (g b))) -> exists y, tgt ff g c y /\ V y.

  Lemma empty_same x : block_empty (g2 x) = block_empty (g x).
  Proof. unfold block_empty. now rewrite Hins. Qed.

  Lemma tail_none : forall f f' cur l y, (forall l, ff_loop f g l cur = Some l) -> V cur -> ff_loop f' g2 l cur = Some y -> V l -> V y.
  Proof.
    induction f as [|f IH]; intros [|f'] cur l y H Vc H2 Vl; cbn [ff_loop] in H2; try discriminate.
    { specialize (H 0). discriminate. }
    rewrite empty_same, Hend in H2. cbn [ff_loop] in H.
    destruct (negb (block_empty (g cur))); [injection H2 as <-; exact Vl|].
    destruct (b_end (g cur)) as [|[n|]| | | | | |] eqn:E; try (injection H2 as <-; exact Vl); [|discriminate].
    rewrite Hnsk in H2. destruct (b_noskip (g n)); [injection H2 as <-; exact Vl|].
    destruct (b_state (g n)) eqn:S.
    { pose proof (H 0) as X0. pose proof (H 1) as X1. congruence. }
    assert (Vn : V n). { destruct (HV cur n Vc) as [z [Z1 Z2]]; [rewrite E; now left|]. unfold tgt in Z1. rewrite S in Z1. injection Z1 as <-. exact Z2. }
    eapply IH; [exact H|exact Vn|exact H2|]. destruct (b_state (g2 n)); assumption.
  Qed.

  Lemma tail_some z : forall f f' cur l y, (forall l, ff_loop f g l cur = Some z) -> V z -> ff_loop f' g2 l cur = Some y -> V y.
  Proof.
    induction f as [|f IH]; intros [|f'] cur l y H Vz H2; cbn [ff_loop] in H2; try discriminate.
    { specialize (H 0). discriminate. }
    rewrite empty_same, Hend in H2. cbn [ff_loop] in H.
    assert (K : (forall l : nat, Some l = Some z) -> V y). { intros X. pose proof (X 0) as X0. pose proof (X 1) as X1. congruence. }
    destruct (negb (block_empty (g cur))); [now apply K|].
    destruct (b_end (g cur)) as [|[n|]| | | | | |] eqn:E; try (now apply K); try (specialize (H 0); discriminate).
    rewrite Hnsk in H2. destruct (b_noskip (g n)); [now apply K|].
    destruct (b_state (g n)) eqn:S; [|eapply IH; eassumption].
    rewrite (Hst n S) in H2. destruct (ff_shape f g n) as [X|[X|[w X]]].
    - specialize (H 0). rewrite X in H. discriminate.
    - assert (z = n) by (pose proof (H 0) as Y; rewrite X in Y; congruence). subst z. eapply tail_none; [exact X|exact Vz|exact H2|exact Vz].
    - assert (z = w) by (pose proof (H 0) as Y; rewrite X in Y; congruence). subst w. eapply IH; [exact X|exact Vz|exact H2].
  Qed.

  Lemma first_state w : forall f cur, f <= ff -> V cur -> (forall l, ff_loop f g l cur = Some w) -> V w.
  Proof.
    induction f as [|f IH]; intros cur L Vc H; [specialize (H 0); discriminate|]. cbn [ff_loop] in H.
    assert (K : (forall l : nat, Some l = Some w) -> V w). { intros X. pose proof (X 0) as X0. pose proof (X 1) as X1. congruence. }
    destruct (negb (block_empty (g cur))); [now apply K|].
    destruct (b_end (g cur)) as [|[n|]| | | | | |] eqn:E; try (now apply K); try (specialize (H 0); discriminate).
    destruct (b_noskip (g n)) eqn:NS; [now apply K|].
    destruct (HV cur n Vc) as [y [Y1 Y2]]; [rewrite E; now left|]. unfold tgt in Y1.
    destruct (b_state (g n)) eqn:S.
    - unfold fast_forward in Y1. rewrite NS in Y1. pose proof (H 0) as H0. destruct (ff_shape f g n) as [X|[X|[z X]]]; rewrite X in H0; [discriminate| |].
      + injection H0 as <-. pose proof (ff_fuel g f ff n n n (X n) ltac:(lia)). congruence.
      + injection H0 as <-. pose proof (ff_fuel g f ff n n z (X n) ltac:(lia)). congruence.
    - injection Y1 as <-. apply (IH n); [lia|exact Y2|exact H].
  Qed.

  Lemma mono_closed : Closed ff g2 V.
  Proof.
    intros b c y Vb Hc T. rewrite Hend in Hc. destruct (HV b c Vb Hc) as [z [Z1 Z2]]. unfold tgt in *.
    destruct (b_state (g c)) eqn:S.
    - rewrite (Hst c S) in T. unfold fast_forward in *. rewrite Hnsk in T. destruct (b_noskip (g c)); [congruence|].
      destruct (ff_shape ff g c) as [X|[X|[w X]]]; rewrite X in Z1; [discriminate| |]; injection Z1 as ->.
      + eapply tail_none; [exact X|exact Z2|exact T|exact Z2].
      + eapply tail_some; [exact X|exact Z2|exact T].
    - injection Z1 as <-. destruct (b_state (g2 c)); [|congruence]. unfold fast_forward in T. rewrite Hnsk in T. destruct (b_noskip (g c)); [congruence|].
      destruct (ff_shape ff g c) as [X|[X|[w X]]].
      + exfalso.
        enough (Q : forall f l cur y, ff_loop f g2 l cur = Some y -> (forall l, ff_loop f g l cur = None) -> False) by (eapply Q; eauto).
        clear - Hend Hins Hnsk. induction f as [|f IH]; intros l cur y T X; cbn [ff_loop] in *; [discriminate|].
        rewrite empty_same, Hend in T. specialize (X 0) as X0. destruct (negb (block_empty (g cur))); [discriminate|].
        destruct (b_end (g cur)) as [|[n|]| | | | | |]; try discriminate. rewrite Hnsk in T. destruct (b_noskip (g n)); [discriminate|].
        eapply IH; [exact T|]. intros l'. destruct (ff_shape f g n) as [Y|[Y|[w Y]]]; [apply Y| |]; rewrite Y in X0; discriminate.
      + eapply tail_none; [exact X|exact Z2|exact T|exact Z2].
      + (* the states met on the way *)
        assert (Vw : V w) by (apply (first_state w ff c); [lia|exact Z2|exact X]).
        eapply tail_some; [exact X|exact Vw|exact T].
  Qed.
End Mono.
