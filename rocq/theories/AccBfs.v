(** The exploration of a state finds every variable read before being written. *)
From Coq Require Import List Bool Arith ZArith Lia.
Import ListNotations.
From Verif Require Import FsmModel FsmEmit FsmRun AccModel.

(** Written by a list of accesses; read before being written. *)
Definition wrote (l : list access) (x : var) : Prop := exists a, In a l /\ In x (snd a).
Inductive early (x : var) : list access -> Prop :=
| early_here a l : In x (fst a) -> early x (a :: l)
| early_next a l : ~ In x (snd a) -> early x l -> early x (a :: l).

Lemma scan_wrote l : forall aw t x, In x (fst (scan l aw t)) <-> In x aw \/ wrote l x.
Proof.
  induction l as [|[rd wr] l IH]; intros aw t x; cbn [scan].
  - split; [now left|]. intros [H|[a [[] _]]]. exact H.
  - rewrite IH. rewrite in_app_iff. split.
    + intros [[H|H]|[a [H1 H2]]]; [right; exists (rd, wr); split; [now left|exact H]|now left|right; exists a; split; [now right|exact H2]].
    + intros [H|[a [[ <-|H1] H2]]]; [auto|auto|right; exists a; auto].
Qed.

Lemma scan_mono l : forall aw t, incl (a_in t) (a_in (snd (scan l aw t))) /\ incl (a_rd t) (a_rd (snd (scan l aw t))) /\ incl (a_wr t) (a_wr (snd (scan l aw t))).
Proof.
  induction l as [|[rd wr] l IH]; intros aw t; cbn [scan].
  - repeat split; apply incl_refl.
  - destruct (IH (wr ++ aw) {| a_in := filter (fun x => negb (memb x aw)) rd ++ a_in t; a_rd := rd ++ a_rd t; a_wr := wr ++ a_wr t |}) as [H1 [H2 H3]].
    cbn [a_in a_rd a_wr] in *.
    repeat split; eapply incl_tran; try eassumption; now apply incl_appr, incl_refl.
Qed.

Lemma scan_early x l : early x l -> forall aw t, ~ In x aw -> In x (a_in (snd (scan l aw t))).
Proof.
  intros H. induction H as [[rd wr] l H|[rd wr] l H E IH]; intros aw t N; cbn [scan].
  - destruct (scan_mono l (wr ++ aw) {| a_in := filter (fun y => negb (memb y aw)) rd ++ a_in t; a_rd := rd ++ a_rd t; a_wr := wr ++ a_wr t |}) as [K _].
    apply K. cbn [a_in]. apply in_or_app. left. apply filter_In. split; [exact H|]. apply negb_true_iff. now apply memb_notIn.
  - apply IH. rewrite in_app_iff. cbn in H. tauto.
Qed.

Section Bfs.
  Variable g : graph.
  Variable acc : nat -> list access.
  Definition edge (p c : nat) : Prop := In (Some c) (children (b_end (g p))).

  Section Head.
    Variable h : nat.
    Variable x : var.
    (** Reached from the head in the cycle. *)
    Inductive rch : nat -> Prop :=
    | rch_h : rch h
    | rch_step p c : rch p -> edge p c -> b_state (g c) = false -> rch c.
    Notation V := rch.

    (** Reached from the head in the cycle, [x] not being written before. *)
    Inductive clean : nat -> Prop :=
    | clean_h : clean h
    | clean_step p c : clean p -> ~ wrote (acc p) x -> edge p c -> b_state (g c) = false -> clean c.

    Lemma clean_V c : clean c -> V c.
    Proof. induction 1; [constructor|eapply rch_step; eassumption]. Qed.

    (** All the paths to [c] arriving from [p] go through [d], a parent of [c]. *)
    Definition dm (d c p : nat) : Prop := p = d \/
      (edge d c /\ exists S : nat -> Prop, S p /\ ~ S h /\ forall y z, V y -> S z -> b_state (g z) = false -> edge y z -> S y \/ y = d).
    Hypothesis D : forall c p1 p2, b_state (g c) = false -> c <> h -> V p1 -> edge p1 c -> V p2 -> edge p2 c -> exists d, dm d c p1 /\ dm d c p2.

    Lemma clean_dom d c p : clean p -> ~ wrote (acc p) x -> edge p c -> dm d c p -> clean d /\ ~ wrote (acc d) x /\ edge d c.
    Proof.
      intros Cp Np E [ ->|[Ed [S [Sp [Sh SS]]]]]; [auto|].
      assert (Q : clean d /\ ~ wrote (acc d) x); [|tauto].
      clear E Np. induction Cp as [|q p Cq IH Nq Eq Sq]; [contradiction|].
      destruct (SS q p (clean_V _ Cq) Sp Sq Eq) as [Q| ->]; [now apply IH|auto].
    Qed.
    Lemma clean_inv c : clean c -> c <> h -> exists p, clean p /\ ~ wrote (acc p) x /\ edge p c.
    Proof. intros H N. destruct H as [|p c Cp Np E Sc]; [congruence|]. exists p. auto. Qed.

    (** Reached from the head through visited blocks. *)
    Section Vis.
      Variable vis : list (option nat).
      Definition done (c : nat) : Prop := c = h \/ (In (Some c) vis /\ b_state (g c) = false).
      Inductive via : nat -> Prop :=
      | via_h : via h
      | via_step p c : via p -> done p -> edge p c -> via c.
    End Vis.

    Definition keys (q : list (option nat * list var)) : list (option nat) := map fst q.
    (** First entry of the queue for a block. *)
    Fixpoint first (c : nat) (q : list (option nat * list var)) : option (list var) :=
      match q with
      | [] => None
      | (Some b, w) :: q' => if Nat.eqb b c then Some w else first c q'
      | (None, _) :: q' => first c q'
      end.
    Lemma first_in c q w : first c q = Some w -> In (Some c, w) q.
    Proof.
      induction q as [|[[b|] v] q IH]; cbn; [discriminate| |auto]. destruct (Nat.eqb_spec b c) as [ ->|N]; [intros [= ->]; now left|auto].
    Qed.
    Lemma first_none c q : first c q = None <-> ~ In (Some c) (keys q).
    Proof.
      induction q as [|[[b|] v] q IH]; cbn; [tauto| |].
      - destruct (Nat.eqb_spec b c) as [ ->|N]; [split; [discriminate|tauto]|]. rewrite IH. split; [intros H [[= X]|X]; [now apply N|tauto]|tauto].
      - rewrite IH. split; [intros H [X|X]; [discriminate|tauto]|tauto].
    Qed.
    Lemma first_app c q q' : first c (q ++ q') = match first c q with Some w => Some w | None => first c q' end.
    Proof. induction q as [|[[b|] v] q IH]; cbn; [reflexivity| |exact IH]. destruct (Nat.eqb b c); [reflexivity|exact IH]. Qed.
    Lemma first_map c l w v : first c (map (fun y => (y, w)) l) = Some v -> v = w /\ In (Some c) l.
    Proof.
      induction l as [|[b|] l IH]; cbn; [discriminate| |intros H; destruct (IH H); auto].
      destruct (Nat.eqb_spec b c) as [ ->|N]; [intros [= ->]; auto|intros H; destruct (IH H); auto].
    Qed.

    Lemma seen_In c vis : seen c vis = true <-> In c vis.
    Proof.
      unfold seen. rewrite existsb_exists. split.
      - intros [y [H E]]. destruct y as [a|], c as [b|]; try discriminate; [|exact H]. apply Nat.eqb_eq in E. now subst.
      - intros H. exists c. split; [exact H|]. destruct c; [apply Nat.eqb_refl|reflexivity].
    Qed.

    (** Invariant of the exploration. *)
    Record Iv (vis : list (option nat)) (q : list (option nat * list var)) : Prop := {
      v_free : forall c w, ~ In (Some c) vis -> clean c -> c <> h -> b_state (g c) = false -> first c q = Some w -> ~ In x w;
      v_via : forall c, In (Some c) vis \/ In (Some c) (keys q) -> exists p, via vis p /\ done vis p /\ edge p c;
      v_next : forall p c, done vis p -> edge p c -> In (Some c) vis \/ In (Some c) (keys q)
    }.

    Lemma via_mono vis vis' c : incl vis vis' -> via vis c -> via vis' c.
    Proof.
      intros I H. induction H as [|p c H IH Dp E]; [constructor|]. eapply via_step; [exact IH| |exact E].
      destruct Dp as [ ->|[A B]]; [now left|right; split; [now apply I|exact B]].
    Qed.
    Lemma done_mono vis vis' c : incl vis vis' -> done vis c -> done vis' c.
    Proof. intros I [ ->|[A B]]; [now left|right; split; [now apply I|exact B]]. Qed.
    Lemma via_V vis c : via vis c -> done vis c -> V c.
    Proof.
      intros H. induction H as [|p c H IH Dp E]; [constructor|]. intros [ ->|[_ S]]; [constructor|]. eapply rch_step; [apply IH; exact Dp|exact E|exact S].
    Qed.
    (** What is reached through visited blocks is reached through the dominating block, visited. *)
    Lemma via_dom vis p c d : via vis p -> done vis p -> edge p c -> dm d c p -> done vis d.
    Proof.
      intros Hv Dp E [ ->|[Ed [S [Sp [Sh SS]]]]]; [exact Dp|].
      clear E. induction Hv as [|q p Hq IH Dq Eq]; [contradiction|].
      assert (Sq : b_state (g p) = false) by (destruct Dp as [ ->|[_ X]]; [contradiction|exact X]).
      destruct (SS q p (via_V _ _ Hq Dq) Sp Sq Eq) as [Q| ->]; [now apply IH|exact Dq].
    Qed.

    Lemma explore_mono : forall f vis q t t', explore g acc f vis q t = Some t' -> incl (a_in t) (a_in t') /\ incl (a_rd t) (a_rd t') /\ incl (a_wr t) (a_wr t').
    Proof.
      induction f as [|f IH]; intros vis [|[[b|] w] q] t t' H; cbn [explore] in H; try discriminate; try (injection H as <-; repeat split; apply incl_refl).
      - destruct (b_state (g b)); [exact (IH _ _ _ _ H)|]. destruct (scan (acc b) w t) as [w' t1] eqn:Sc.
        destruct (IH _ _ _ _ H) as [A [B C]]. pose proof (scan_mono (acc b) w t) as [A1 [B1 C1]]. rewrite Sc in A1, B1, C1. cbn [snd] in *.
        repeat split; eapply incl_tran; eassumption.
      - exact (IH _ _ _ _ H).
    Qed.

    Lemma keys_app a b : keys (a ++ b) = keys a ++ keys b.
    Proof. apply map_app. Qed.
    Lemma keys_map l (w : list var) : keys (map (fun y => (y, w)) l) = l.
    Proof. unfold keys. rewrite map_map. cbn. apply map_id. Qed.

    Lemma step_skip vis q c w : Iv vis ((c, w) :: q) -> (forall b, c = Some b -> b_state (g b) = true) -> Iv (c :: vis) q.
    Proof.
      intros [F W N] Sc.
      assert (Dn : forall p, done (c :: vis) p -> done vis p).
      { intros p [ ->|[[E|A] B]]; [now left| |right; auto]. subst c. rewrite (Sc p eq_refl) in B. discriminate. }
      constructor.
      - intros c' w' Nv Cl Nh St Fi. apply (F c' w'); auto; [intros X; apply Nv; now right|].
        cbn. destruct c as [b|]; [|exact Fi]. destruct (Nat.eqb_spec b c') as [ ->|]; [exfalso; apply Nv; now left|exact Fi].
      - intros c' H. destruct (W c') as [p [P1 [P2 P3]]].
        + cbn. destruct H as [[H|H]|H]; auto.
        + exists p. split; [eapply via_mono; [|exact P1]; intros y; now right|]. split; [eapply done_mono; [|exact P2]; intros y; now right|exact P3].
      - intros p c' Dp E. destruct (N p c' (Dn p Dp) E) as [H|[H|H]]; [left; now right|left; left; exact H|right; exact H].
    Qed.

    Lemma step_go vis q b w w' : Iv vis ((Some b, w) :: q) -> b_state (g b) = false -> b <> h -> (forall y, In y w' <-> In y w \/ wrote (acc b) y) ->
      Iv (Some b :: vis) (q ++ map (fun y => (y, w')) (filter (fun y => negb (seen y (Some b :: vis))) (children (b_end (g b))))).
    Proof.
      intros [F W N] Sb Nb Hw. set (ch := filter (fun y => negb (seen y (Some b :: vis))) (children (b_end (g b)))).
      assert (CH : forall c, In (Some c) ch <-> edge b c /\ ~ In (Some c) (Some b :: vis)).
      { intros c. unfold ch. rewrite filter_In. rewrite negb_true_iff. unfold edge. split; intros [A B]; split; auto.
        - intros X. apply seen_In in X. congruence.
        - destruct (seen (Some c) (Some b :: vis)) eqn:Y; [|reflexivity]. apply seen_In in Y. contradiction. }
      destruct (W b) as [p0 [P1 [P2 P3]]]; [right; now left|].
      assert (Vb : via vis b) by (eapply via_step; eassumption).
      assert (Dn : forall p, done (Some b :: vis) p -> p = b \/ done vis p).
      { intros p [ ->|[[[= ->]|A] B]]; [right; now left|now left|right; right; auto]. }
      assert (Db : done (Some b :: vis) b) by (right; split; [now left|exact Sb]).
      assert (Vb' : via (Some b :: vis) b) by (eapply via_mono; [|exact Vb]; intros y; now right).
      constructor.
      - intros c v Nv Cl Nh St Fi. rewrite first_app in Fi. destruct (first c q) as [v0|] eqn:Fq.
        + injection Fi as <-. apply (F c v0); auto; [intros X; apply Nv; now right|]. cbn. destruct (Nat.eqb_spec b c) as [ ->|]; [exfalso; apply Nv; now left|exact Fq].
        + apply first_map in Fi. destruct Fi as [ -> Hc]. apply CH in Hc. destruct Hc as [E _].
          destruct (clean_inv _ Cl Nh) as [p2 [Cp2 [Np2 Ep2]]].
          destruct (D c b p2 St Nh (via_V _ _ Vb' Db) E (clean_V _ Cp2) Ep2) as [d [D1 D2]].
          pose proof (via_dom _ _ _ _ Vb' Db E D1) as Q. destruct (clean_dom _ _ _ Cp2 Np2 Ep2 D2) as [Cb [Nw Ed]]. destruct (Dn d Q) as [ ->|Od].
          *
            rewrite Hw. intros [X|X]; [|contradiction]. destruct (first b ((Some b, w) :: q)) as [v|] eqn:Fb; cbn in Fb; rewrite Nat.eqb_refl in Fb; [|discriminate]. injection Fb as ->.
            destruct (in_dec (fun a b : option nat => ltac:(decide equality; apply Nat.eq_dec)) (Some b) vis) as [Iv|Nb'].
            -- (* visited before: its children are known *)
               assert (O : done vis b) by (right; auto). destruct (N b c O E) as [Y|[Y|Y]]; [apply Nv; now right|apply Nv; left; exact Y|]. apply first_none in Fq. contradiction.
            -- apply (F b v Nb' Cb Nb Sb); [cbn; now rewrite Nat.eqb_refl|exact X].
          * destruct (N d c Od Ed) as [Y|[Y|Y]]; [exfalso; apply Nv; now right|exfalso; apply Nv; left; exact Y|]. apply first_none in Fq. contradiction.
      - intros c H. rewrite keys_app, keys_map, in_app_iff in H.
        assert (O : (In (Some c) vis \/ In (Some c) (keys ((Some b, w) :: q))) \/ edge b c).
        { cbn. destruct H as [[H|H]|[H|H]]; auto. apply CH in H. tauto. }
        destruct O as [O|O].
        + destruct (W c O) as [p [A1 [A2 A3]]]. exists p. split; [eapply via_mono; [|exact A1]; intros y; now right|]. split; [eapply done_mono; [|exact A2]; intros y; now right|exact A3].
        + exists b. auto.
      - intros p c Dp E. rewrite keys_app, keys_map, in_app_iff.
        destruct (in_dec (fun a b : option nat => ltac:(decide equality; apply Nat.eq_dec)) (Some c) (Some b :: vis)) as [Iv|Nv]; [now left|]. right.
        destruct (Dn p Dp) as [ ->|Op]; [right; apply CH; auto|].
        destruct (N p c Op E) as [Y|[Y|Y]]; [exfalso; apply Nv; now right|exfalso; apply Nv; left; exact Y|now left].
    Qed.

    Hypothesis Hh : b_state (g h) = true \/ forall p, V p -> ~ edge p h.

    Lemma not_head vis q b w : Iv vis ((Some b, w) :: q) -> b_state (g b) = false -> b <> h.
    Proof.
      intros I Sb ->. destruct Hh as [X|X]; [congruence|]. destruct (v_via _ _ I h) as [p [A [B C]]]; [right; now left|].
      apply (X p); [eapply via_V; eassumption|exact C].
    Qed.

    Lemma explore_ok : forall f vis q t t', explore g acc f vis q t = Some t' -> Iv vis q ->
      (forall c, ~ In (Some c) vis -> clean c -> c <> h -> b_state (g c) = false -> early x (acc c) -> In x (a_in t')).
    Proof.
      induction f as [|f IH]; intros vis [|[[b|] w] q] t t' H I c Nv Cl Nh St Er; cbn [explore] in H; try discriminate.
      - exfalso. clear Er. induction Cl as [|p c Cp IH' Np E Sc]; [congruence|].
        destruct (v_next _ _ I p c) as [X|X]; [|exact E|contradiction|destruct X].
        destruct (Nat.eq_dec p h) as [ ->|Np']; [now left|]. destruct (in_dec (fun a b : option nat => ltac:(decide equality; apply Nat.eq_dec)) (Some p) vis) as [Y|Y].
        + right. split; [exact Y|]. inversion Cp; subst; [congruence|assumption].
        + exfalso. apply IH'; auto. inversion Cp; subst; [congruence|assumption].
      - exfalso. clear Er. induction Cl as [|p c Cp IH' Np E Sc]; [congruence|].
        destruct (v_next _ _ I p c) as [X|X]; [|exact E|contradiction|destruct X].
        destruct (Nat.eq_dec p h) as [ ->|Np']; [now left|]. destruct (in_dec (fun a b : option nat => ltac:(decide equality; apply Nat.eq_dec)) (Some p) vis) as [Y|Y].
        + right. split; [exact Y|]. inversion Cp; subst; [congruence|assumption].
        + exfalso. apply IH'; auto. inversion Cp; subst; [congruence|assumption].
      - destruct (b_state (g b)) eqn:Sb.
        + apply (IH _ _ _ _ H) with (c := c); auto; [apply (step_skip _ _ _ _ I); intros b' [= <-]; exact Sb|].
          intros [[= ->]|X]; [congruence|contradiction].
        + destruct (scan (acc b) w t) as [w' t1] eqn:Sc.
          assert (Hw : forall y, In y w' <-> In y w \/ wrote (acc b) y) by (intros y; pose proof (scan_wrote (acc b) w t y) as K; now rewrite Sc in K).
          pose proof (not_head _ _ _ _ I Sb) as Nb.
          pose proof (step_go vis q b w w' I Sb Nb Hw) as I'.
          destruct (Nat.eq_dec c b) as [ ->|N].
          * destruct (explore_mono _ _ _ _ _ H) as [M _]. apply M. replace t1 with (snd (scan (acc b) w t)) by (now rewrite Sc).
            apply scan_early; [exact Er|]. apply (v_free _ _ I b w Nv Cl Nh St). cbn. now rewrite Nat.eqb_refl.
          * apply (IH _ _ _ _ H I' c); auto. intros [[= ->]|X]; [congruence|contradiction].
      - apply (IH _ _ _ _ H) with (c := c); auto; [apply (step_skip _ _ _ _ I); intros b' [=]|].
        intros [[=]|X]; contradiction.
    Qed.

    Theorem access_head_ok f t t' : access_head g acc f h t = Some t' -> forall c, clean c -> b_state (g c) = false \/ c = h -> early x (acc c) -> In x (a_in t').
    Proof.
      unfold access_head. destruct (scan (acc h) [] t) as [w t1] eqn:Sc. intros H c Cl Sh Er.
      assert (Hw : forall y, In y w <-> wrote (acc h) y) by (intros y; pose proof (scan_wrote (acc h) [] t y) as K; rewrite Sc in K; cbn [fst] in K; rewrite K; cbn; tauto).
      destruct (Nat.eq_dec c h) as [ ->|N].
      - destruct (explore_mono _ _ _ _ _ H) as [M _]. apply M. replace t1 with (snd (scan (acc h) [] t)) by (now rewrite Sc).
        apply scan_early; [exact Er|intros []].
      - destruct Sh as [St|X]; [|contradiction].
        apply (explore_ok _ _ _ _ _ H) with (c := c); auto. constructor.
        + intros c' v _ Cl' Nh St' Fi. apply first_map in Fi. destruct Fi as [ -> E]. rewrite Hw. destruct (clean_inv _ Cl' Nh) as [p2 [Cp2 [Np2 Ep2]]].
          destruct (D c' h p2 St' Nh rch_h E (clean_V _ Cp2) Ep2) as [d [D1 D2]].
          destruct (clean_dom _ _ _ Cp2 Np2 Ep2 D2) as [Cd [Nw Ed]].
          assert (O : done [] d) by (apply (via_dom [] h c' d); [constructor|now left|exact E|exact D1]).
          destruct O as [ ->|[[] _]]. exact Nw.
        + intros c' [[]|H']. rewrite keys_map in H'. exists h. split; [constructor|]. split; [now left|exact H'].
        + intros p c' [ ->|[[] _]] E. right. now rewrite keys_map.
    Qed.
  End Head.

  Lemma access_head_mono f h t t' : access_head g acc f h t = Some t' -> incl (a_in t) (a_in t') /\ incl (a_rd t) (a_rd t') /\ incl (a_wr t) (a_wr t').
  Proof.
    unfold access_head. pose proof (scan_mono (acc h) [] t) as [A [B C]]. destruct (scan (acc h) [] t) as [w t1]. cbn [snd] in *. intros H.
    destruct (explore_mono _ _ _ _ _ H) as [A1 [B1 C1]]. repeat split; eapply incl_tran; eassumption.
  Qed.
  Lemma access_heads_mono f : forall hs t t', access_heads g acc f hs t = Some t' -> incl (a_in t) (a_in t') /\ incl (a_rd t) (a_rd t') /\ incl (a_wr t) (a_wr t').
  Proof.
    induction hs as [|h hs IH]; intros t t' H; cbn in H; [injection H as <-; repeat split; apply incl_refl|].
    apply obind_some in H. destruct H as [t1 [H1 H2]]. destruct (access_head_mono _ _ _ _ H1) as [A [B C]]. destruct (IH _ _ H2) as [A1 [B1 C1]].
    repeat split; eapply incl_tran; eassumption.
  Qed.
  Lemma access_heads_in f : forall hs t t' h, access_heads g acc f hs t = Some t' -> In h hs -> exists t1 t2, access_head g acc f h t1 = Some t2 /\ incl (a_in t2) (a_in t').
  Proof.
    induction hs as [|h0 hs IH]; intros t t' h H Hh; [destruct Hh|]. cbn in H. apply obind_some in H. destruct H as [t1 [H1 H2]].
    destruct Hh as [ ->|Hh]; [exists t, t1; split; [exact H1|apply (access_heads_mono _ _ _ _ H2)]|eapply IH; eassumption].
  Qed.
End Bfs.
