(** Every well formed program compiles. *)
From Coq Require Import List Bool Arith ZArith Lia.
Import ListNotations.
From Verif Require Import FsmModel FsmEmit FsmLayout FsmGather FsmBody FsmRenum FsmRegion FsmJoin FsmStates FsmArms FsmSkip FsmFuel.

(** * Gathering *)
(** Breaks are inside loops. *)
Fixpoint brkok (lp : bool) (st : stmt) : bool :=
  match st with
  | SBlock l => forallb (brkok lp) l
  | SIf _ l => forallb (brkok lp) l
  | SIfElse _ l1 l2 => forallb (brkok lp) l1 && forallb (brkok lp) l2
  | SSwitch _ cs => forallb (fun c => forallb (brkok lp) (snd c)) cs
  | SWhile _ l => forallb (brkok true) l
  | SBreak => lp
  | _ => true
  end.
Definition brkoks (lp : bool) (l : list stmt) : bool := forallb (brkok lp) l.

Lemma memb_cons x a l : memb x (a :: l) = (Nat.eqb x a || memb x l).
Proof. reflexivity. Qed.

Section Stateless.
  Variable g : graph.
  Variable N : nat.
  Hypothesis B : forall b c, b < N -> In (Some c) (children (b_end (g b))) -> c < N.
  Definition unv (vis : list nat) : nat := length (filter (fun x => negb (memb x vis)) (seq 0 N)).
  Definition olds (vis q : list nat) : nat := length (filter (fun x => memb x vis) q).

  Lemma filter_le {A} (f h : A -> bool) l : (forall x, In x l -> f x = true -> h x = true) -> length (filter f l) <= length (filter h l).
  Proof.
    induction l as [|a l IH]; intros H; cbn; [lia|]. assert (IH' : length (filter f l) <= length (filter h l)) by (apply IH; intros x Hx; apply H; now right).
    destruct (f a) eqn:F; cbn; [rewrite (H a ltac:(now left) F); cbn; lia|]. destruct (h a); cbn; lia.
  Qed.
  Lemma filter_lt {A} (f h : A -> bool) l a : (forall x, In x l -> f x = true -> h x = true) -> In a l -> f a = false -> h a = true -> length (filter f l) < length (filter h l).
  Proof.
    induction l as [|b l IH]; intros H Ha F K; [destruct Ha|]. cbn. assert (H' : forall x, In x l -> f x = true -> h x = true) by (intros x Hx; apply H; now right).
    destruct Ha as [ ->|Ha].
    - rewrite F, K. cbn. pose proof (filter_le f h l H'). lia.
    - specialize (IH H' Ha F K). destruct (f b) eqn:Fb; cbn; [rewrite (H b ltac:(now left) Fb); cbn; lia|]. destruct (h b); cbn; lia.
  Qed.
  Lemma filter_none {A} (f : A -> bool) l : (forall x, In x l -> f x = false) -> filter f l = [].
  Proof. induction l as [|a l IH]; intros H; cbn; [reflexivity|]. rewrite (H a ltac:(now left)). apply IH. intros x Hx. apply H. now right. Qed.

  Lemma stateless_total vis q : (forall x, In x q -> x < N) -> exists f fl, stateless f g vis q = Some fl.
  Proof.
    enough (X : forall u o vis q, u = unv vis -> o = olds vis q -> (forall x, In x q -> x < N) -> exists f fl, stateless f g vis q = Some fl) by (intros H; eapply X; eauto).
    clear vis q. induction u as [u IHu] using lt_wf_ind. induction o as [o IHo] using lt_wf_ind. intros vis q U O Hq.
    destruct q as [|c q]; [exists 0, true; reflexivity|].
    destruct (b_state (g c)) eqn:S; [exists 1, false; cbn; now rewrite S|]. destruct (is_call (b_end (g c))) eqn:C; [exists 1, false; cbn; now rewrite S, C|].
    destruct (somes (children (b_end (g c)))) as [cs|] eqn:E; [|exists 1, false; cbn; now rewrite S, C, E].
    set (q2 := q ++ filter (fun x => negb (memb x (c :: vis))) cs).
    assert (Hc : c < N) by (apply Hq; now left).
    assert (Hq2 : forall x, In x q2 -> x < N).
    { intros x Hx. apply in_app_or in Hx. destruct Hx as [Hx|Hx]; [apply Hq; now right|]. apply filter_In in Hx. destruct Hx as [Hx _]. apply (B c); [exact Hc|]. now apply (somes_in _ _ _ E). }
    assert (D : exists f fl, stateless f g (c :: vis) q2 = Some fl).
    { destruct (memb c vis) eqn:M.
      - eapply (IHo (olds (c :: vis) q2)); [| |reflexivity|exact Hq2].
        + subst o. unfold olds, q2. cbn [filter]. rewrite M. cbn [length]. rewrite filter_app, app_length.
          rewrite (filter_none _ (filter _ cs)); [|intros x Hx; apply filter_In in Hx; destruct Hx as [_ Hx]; now apply negb_true_iff in Hx].
          cbn [length]. rewrite Nat.add_0_r. apply Nat.lt_succ_r. apply filter_le. intros x _ Hx. rewrite memb_cons in Hx. apply orb_true_iff in Hx.
          destruct Hx as [Hx|Hx]; [apply Nat.eqb_eq in Hx; rewrite Hx; exact M|exact Hx].
        + rewrite U. unfold unv. f_equal. apply filter_ext. intros x. rewrite memb_cons. destruct (Nat.eqb_spec x c) as [E1|Nx]; [now rewrite E1, M|reflexivity].
      - eapply (IHu (unv (c :: vis))); [|reflexivity|reflexivity|exact Hq2]. subst u. unfold unv. apply filter_lt with c.
        + intros x _ Hx. rewrite memb_cons in Hx. apply negb_true_iff in Hx. apply orb_false_iff in Hx. destruct Hx as [_ Hx]. now rewrite Hx.
        + apply in_seq. lia.
        + rewrite memb_cons, Nat.eqb_refl. reflexivity.
        + now rewrite M. }
    destruct D as [f [fl D]]. exists (Datatypes.S f), fl. cbn. rewrite S, C, E. exact D.
  Qed.
End Stateless.

(** Blocks only lead to existing blocks. *)
Definition Bc (g : graph) (N : nat) : Prop := forall b c, b < N -> In (Some c) (children (b_end (g b))) -> c < N.
Definition Bd (s : gst) : Prop := Bc (g_blk s) (g_next s) /\ forall n b, In (n, b) (g_lbl s) -> b < g_next s.
Lemma bd_addb s : Bd s -> Bd (addb s).
Proof.
  intros [H K]. split; [|intros n b I; rewrite n_addb; specialize (K n b I); lia].
  intros b c L Hc. rewrite n_addb in *. destruct (Nat.eq_dec b (g_next s)) as [ ->|N]; [rewrite b_addb_new in Hc; destruct Hc|].
  rewrite b_addb in Hc by exact N. specialize (H b c ltac:(lia) Hc). lia.
Qed.
Lemma bd_end s b e : Bd s -> (forall c, In (Some c) (children e) -> c < g_next s) -> Bd (st_end s b e).
Proof.
  intros [H K0] K. split; [|exact K0]. intros x c L Hc. rewrite n_end in *. destruct (Nat.eq_dec x b) as [ ->|N]; [rewrite e_end_same in Hc; now apply K|].
  rewrite e_end in Hc by exact N. now apply (H x).
Qed.
Lemma bd_next s b n : Bd s -> n < g_next s -> Bd (st_next s b n).
Proof. intros H L. apply bd_end; [exact H|]. intros c [[= <-]|[]]. exact L. Qed.
Lemma bd_state s b v : Bd s -> Bd (st_state s b v).
Proof. intros [H K]. split; [|exact K]. intros x c L Hc. rewrite e_state in Hc. now apply (H x). Qed.
Lemma bd_ins s b l : Bd s -> Bd (upd_blk s (add_ins (g_blk s) b l)).
Proof. intros [H K]. split; [|exact K]. intros x c L Hc. rewrite e_ins in Hc. now apply (H x). Qed.
Lemma bd_noskip s b : Bd s -> Bd (upd_blk s (set_noskip (g_blk s) b)).
Proof. intros [H K]. split; [|exact K]. intros x c L Hc. rewrite e_nsk in Hc. now apply (H x). Qed.

Record Tot (lbls : list nat) (s : gst) (c' : nat) (s' : gst) : Prop := {
  t_bd : Bd s';
  t_cur : c' < g_next s';
  t_next : g_next s <= g_next s';
  t_lbl : forall n, assoc n (g_lbl s') = None <-> assoc n (g_lbl s) = None /\ ~ In n lbls
}.
Definition may (brk : option nat) : bool := match brk with Some _ => true | None => false end.
Definition stmt_tot (st : stmt) : Prop := forall brk cur s, brkok (may brk) st = true -> Bd s -> cur < g_next s -> (forall t, brk = Some t -> t < g_next s) ->
  NoDup (labels st) -> (forall n, In n (labels st) -> assoc n (g_lbl s) = None) -> exists f c' s', gather f brk st cur s = Some (c', s') /\ Tot (labels st) s c' s'.

Lemma NoDup_app_l {A} (a b : list A) : NoDup (a ++ b) -> NoDup a /\ NoDup b /\ forall x, In x a -> ~ In x b.
Proof.
  induction a as [|x a IH]; cbn; intros H; [split; [constructor|split; [exact H|intros ? []]]|]. inversion H as [|? ? H1 H2]; subst. destruct (IH H2) as [A1 [A2 A3]].
  split; [constructor; [intros X; apply H1; apply in_or_app; now left|exact A1]|]. split; [exact A2|]. intros y [ <-|Hy]; [intros X; apply H1; apply in_or_app; now right|now apply A3].
Qed.

Lemma list_tot l : Forall stmt_tot l -> forall brk cur s, brkoks (may brk) l = true -> Bd s -> cur < g_next s -> (forall t, brk = Some t -> t < g_next s) ->
  NoDup (labelss l) -> (forall n, In n (labelss l) -> assoc n (g_lbl s) = None) -> exists f c' s', gather_list f brk l cur s = Some (c', s') /\ Tot (labelss l) s c' s'.
Proof.
  induction 1 as [|x r Hx Hr IH]; intros brk cur s K H L Hb ND HL.
  - exists 0, cur, s. split; [reflexivity|]. constructor; [exact H|exact L|lia|]. cbn. tauto.
  - cbn [brkoks forallb] in K. apply andb_true_iff in K. destruct K as [K1 K2]. cbn [labelss flat_map] in ND, HL. destruct (NoDup_app_l _ _ ND) as [N1 [N2 N3]].
    destruct (Hx brk cur s K1 H L Hb N1) as [f1 [c1 [s1 [G1 T1]]]]; [intros n Hn; apply HL; apply in_or_app; now left|].
    destruct (IH brk c1 s1 K2 (t_bd _ _ _ _ T1) (t_cur _ _ _ _ T1)) as [f2 [c2 [s2 [G2 T2]]]]; [intros t Ht; pose proof (t_next _ _ _ _ T1); specialize (Hb t Ht); lia|exact N2| |].
    { intros n Hn. apply (t_lbl _ _ _ _ T1). split; [apply HL; apply in_or_app; now right|]. intros X. exact (N3 n X Hn). }
    exists (max f1 f2), c2, s2. split.
    + rewrite gather_list_cons. rewrite (gather_fuel f1 (max f1 f2) ltac:(lia) x brk cur s _ G1). cbn [obind]. exact (gather_list_fuel f2 (max f1 f2) ltac:(lia) r brk c1 s1 _ G2).
    + constructor; [apply T2|apply T2|pose proof (t_next _ _ _ _ T1); pose proof (t_next _ _ _ _ T2); lia|].
      intros n. rewrite (t_lbl _ _ _ _ T2 n), (t_lbl _ _ _ _ T1 n). cbn [labelss flat_map]. rewrite in_app_iff. unfold labelss. tauto.
Qed.

Lemma block_tot l : Forall stmt_tot l -> forall brk cur s, brkoks (may brk) l = true -> Bd s -> cur < g_next s -> (forall t, brk = Some t -> t < g_next s) ->
  NoDup (labelss l) -> (forall n, In n (labelss l) -> assoc n (g_lbl s) = None) -> exists f c' s', gblock f brk l cur s = Some (c', s') /\ Tot (labelss l) s c' s'.
Proof.
  intros HF brk cur s K H L Hb ND HL.
  destruct (list_tot l HF brk (g_next s) (st_next (addb s) cur (g_next s)) K) as [f [a [s3 [G T]]]].
  - apply bd_next; [now apply bd_addb|rewrite n_addb; lia].
  - unfold st_next. rewrite n_end, n_addb. lia.
  - intros t Ht. unfold st_next. rewrite n_end, n_addb. specialize (Hb t Ht). lia.
  - exact ND.
  - exact HL.
  - exists f, (g_next s3), (st_next (addb s3) a (g_next s3)). unfold gblock. rewrite G. cbn [obind]. split; [reflexivity|]. constructor.
    + apply bd_next; [apply bd_addb; apply T|rewrite n_addb; lia].
    + unfold st_next. rewrite n_end, n_addb. lia.
    + unfold st_next. rewrite n_end, n_addb. pose proof (t_next _ _ _ _ T) as X. unfold st_next in X. rewrite n_end, n_addb in X. lia.
    + intros n. exact (t_lbl _ _ _ _ T n).
Qed.

Ltac nx := unfold st_next in *; repeat first [rewrite n_end in * | rewrite n_addb in * | rewrite n_state in * | rewrite n_last in * | rewrite n_upd in *].

Lemma cases_tot brk af : forall cs, Forall (fun c => Forall stmt_tot (snd c)) cs -> forall s, forallb (fun c => brkoks (may brk) (snd c)) cs = true -> Bd s -> af < g_next s ->
  (forall t, brk = Some t -> t < g_next s) -> NoDup (flat_map (fun c => labelss (snd c)) cs) ->
  (forall n, In n (flat_map (fun c => labelss (snd c)) cs) -> assoc n (g_lbl s) = None) ->
  exists f bs s', gcases f brk af cs s = Some (bs, s') /\ Tot (flat_map (fun c => labelss (snd c)) cs) s af s' /\ forall x, In x (map snd bs) -> x < g_next s'.
Proof.
  induction 1 as [|[v l] cs Hl Hc IH]; intros s K H L Hb ND HL.
  - exists 0, [], s. split; [reflexivity|]. split; [|intros x []]. constructor; [exact H|exact L|lia|]. cbn. tauto.
  - cbn [forallb snd flat_map] in *. apply andb_true_iff in K. destruct K as [K1 K2]. destruct (NoDup_app_l _ _ ND) as [N1 [N2 N3]].
    destruct (block_tot l Hl brk (g_next s) (addb s) K1) as [f1 [ca [s2 [G1 T1]]]];
      [now apply bd_addb|nx; lia|intros t Ht; nx; specialize (Hb t Ht); lia|exact N1|intros n Hn; apply (HL n); apply in_or_app; now left|].
    pose proof (t_next _ _ _ _ T1) as L1. rewrite n_addb in L1.
    destruct (IH (st_next s2 ca af) K2) as [f2 [bs [s3 [G2 [T2 B2]]]]].
    + apply bd_next; [apply T1|lia].
    + nx. lia.
    + intros t Ht. nx. specialize (Hb t Ht). lia.
    + exact N2.
    + intros n Hn. change (assoc n (g_lbl s2) = None). apply (t_lbl _ _ _ _ T1). split; [apply (HL n); apply in_or_app; now right|]. intros X. exact (N3 n X Hn).
    + pose proof (t_next _ _ _ _ T2) as L2. nx.
      exists (max f1 f2), ((v, g_next s) :: bs), s3. split; [|split].
      * cbn [gcases]. rewrite (block_fuel f1 (max f1 f2) l ltac:(apply Forall_forall; intros x _; apply gather_fuel; lia) brk _ _ _ G1). cbn [obind].
        assert (X : ext (gcases f2 brk af cs (st_next s2 ca af)) (gcases (max f1 f2) brk af cs (st_next s2 ca af))).
        { generalize (st_next s2 ca af) as z. clear. induction cs as [|[v l] cs IH]; intros z; cbn [gcases]; [apply ext_refl|].
          apply ext_bind; [apply block_fuel; apply Forall_forall; intros x _; apply gather_fuel; lia|]. intros [ca s2]. apply ext_bind; [apply IH|]. intros [bs s3]. apply ext_refl. }
        rewrite (X _ G2). reflexivity.
      * constructor; [apply T2|apply T2|lia|]. intros n. rewrite (t_lbl _ _ _ _ T2 n). change (g_lbl (st_next s2 ca af)) with (g_lbl s2). rewrite (t_lbl _ _ _ _ T1 n).
        change (g_lbl (addb s)) with (g_lbl s). rewrite in_app_iff. tauto.
      * intros x [ <-|Hx]; [cbn; lia|now apply B2].
Qed.

Lemma gflags_total g N : (forall b c, b < N -> In (Some c) (children (b_end (g b))) -> c < N) -> forall bs, (forall x, In x (map snd bs) -> x < N) -> exists f fl, gflags f g bs = Some fl.
Proof.
  intros HB. induction bs as [|[v b] bs IH]; intros H; [exists 0, true; reflexivity|].
  destruct IH as [f1 [fl1 E1]]; [intros x Hx; apply H; now right|].
  destruct (stateless_total g N HB [] [b]) as [f2 [fl2 E2]]; [intros x [ <-|[]]; apply H; now left|].
  exists (max f1 f2), (fl2 && fl1). cbn [gflags]. rewrite (stateless_fuel g f2 (max f1 f2) [] [b] ltac:(lia) _ E2). cbn [obind].
  rewrite (gflags_fuel f1 (max f1 f2) ltac:(lia) g bs _ E1). reflexivity.
Qed.

Lemma stateless_st s b : Bd s -> b < g_next s -> exists f fl, stateless f (g_blk s) [] [b] = Some fl.
Proof. intros H L. apply (stateless_total (g_blk s) (g_next s) (proj1 H)). intros x [ <-|[]]. exact L. Qed.

Lemma gather_total st : stmt_tot st.
Proof.
  induction st using stmt_ind'; intros brk cur s K HB L Hb ND HL.
  - exists 0, cur, (upd_blk s (add_ins (g_blk s) cur [IAssign x e])). split; [reflexivity|]. constructor; [now apply bd_ins|exact L|cbn; lia|cbn; tauto].
  - destruct (block_tot l H brk cur s K HB L Hb ND HL) as [f [c' [s' [G T]]]]. exists f, c', s'. split; [exact G|exact T].
  - destruct (block_tot l H brk (g_next s) (addb (addb s)) K) as [f1 [ia [s3 [G T]]]];
      [now do 2 apply bd_addb|nx; lia|intros t Ht; nx; specialize (Hb t Ht); lia|exact ND|exact HL|].
    pose proof (t_next _ _ _ _ T) as L1. pose proof (t_cur _ _ _ _ T) as L2. nx.
    set (s5 := st_next (st_next (addb s3) ia (g_next s3)) (S (g_next s)) (g_next s3)).
    assert (B5 : Bd s5) by (unfold s5; apply bd_next; [apply bd_next; [apply bd_addb; apply T|nx; lia]|nx; lia]).
    destruct (stateless_st s5 (g_next s) B5 ltac:(unfold s5; nx; lia)) as [f2 [fl E]].
    exists (max f1 f2). eexists. eexists. split.
    + rewrite gather_if. rewrite (block_fuel f1 (max f1 f2) l ltac:(apply Forall_forall; intros x _; apply gather_fuel; lia) brk _ _ _ G). cbn [obind].
      fold s5. rewrite (stateless_fuel (g_blk s5) f2 (max f1 f2) [] _ ltac:(lia) _ E). cbn [obind]. reflexivity.
    + constructor.
      * apply bd_end; [exact B5|]. intros c [[= <-]|[[= <-]|[[= <-]|[]]]]; unfold s5; nx; lia.
      * unfold s5; nx; lia.
      * unfold s5; nx; lia.
      * intros n. exact (t_lbl _ _ _ _ T n).
  - cbn [brkok] in K. apply andb_true_iff in K. destruct K as [K1 K2]. cbn [labels] in ND, HL. destruct (NoDup_app_l _ _ ND) as [N1 [N2 N3]].
    destruct (block_tot l1 H brk (g_next s) (addb (addb s)) K1) as [f1 [ia [s3 [G1 T1]]]];
      [now do 2 apply bd_addb|nx; lia|intros t Ht; nx; specialize (Hb t Ht); lia|exact N1|intros n Hn; apply (HL n); apply in_or_app; now left|].
    pose proof (t_next _ _ _ _ T1) as L1. pose proof (t_cur _ _ _ _ T1) as L2. nx.
    destruct (block_tot l2 H0 brk (S (g_next s)) s3 K2) as [f2 [ea [s4 [G2 T2]]]];
      [apply T1|lia|intros t Ht; specialize (Hb t Ht); lia|exact N2| |].
    { intros n Hn. apply (t_lbl _ _ _ _ T1). split; [apply (HL n); apply in_or_app; now right|]. intros X. exact (N3 n X Hn). }
    pose proof (t_next _ _ _ _ T2) as L3. pose proof (t_cur _ _ _ _ T2) as L4.
    set (s6 := st_next (st_next (addb s4) ia (g_next s4)) ea (g_next s4)).
    assert (B6 : Bd s6) by (unfold s6; apply bd_next; [apply bd_next; [apply bd_addb; apply T2|nx; lia]|nx; lia]).
    destruct (stateless_st s6 (g_next s) B6 ltac:(unfold s6; nx; lia)) as [f3 [fi E1]].
    destruct (stateless_st s6 (S (g_next s)) B6 ltac:(unfold s6; nx; lia)) as [f4 [fe E2]].
    exists (max (max f1 f2) (max f3 f4)). eexists. eexists. split.
    + rewrite gather_ifelse. rewrite (block_fuel f1 (max (max f1 f2) (max f3 f4)) l1 ltac:(apply Forall_forall; intros x _; apply gather_fuel; lia) brk _ _ _ G1). cbn [obind].
      rewrite (block_fuel f2 (max (max f1 f2) (max f3 f4)) l2 ltac:(apply Forall_forall; intros x _; apply gather_fuel; lia) brk _ _ _ G2). cbn [obind].
      fold s6. rewrite (stateless_fuel (g_blk s6) f3 (max (max f1 f2) (max f3 f4)) [] _ ltac:(lia) _ E1). cbn [obind].
      rewrite (stateless_fuel (g_blk s6) f4 (max (max f1 f2) (max f3 f4)) [] _ ltac:(lia) _ E2). cbn [obind]. reflexivity.
    + constructor.
      * apply bd_end; [exact B6|]. intros c [[= <-]|[[= <-]|[[= <-]|[]]]]; unfold s6; nx; lia.
      * unfold s6; nx; lia.
      * unfold s6; nx; lia.
      * intros n. change (assoc n (g_lbl s4) = None <-> assoc n (g_lbl s) = None /\ ~ In n (labelss l1 ++ labelss l2)). rewrite (t_lbl _ _ _ _ T2 n), (t_lbl _ _ _ _ T1 n).
        change (g_lbl (addb (addb s))) with (g_lbl s). rewrite in_app_iff. tauto.
  - destruct (cases_tot brk (g_next s) cs H (addb s) K) as [f1 [bs [s2 [G [T Hbs]]]]];
      [now apply bd_addb|nx; lia|intros t Ht; nx; specialize (Hb t Ht); lia|exact ND|exact HL|].
    pose proof (t_next _ _ _ _ T) as L1. rewrite n_addb in L1.
    set (s3 := st_end s2 cur (ESwitch e bs (g_next s))).
    assert (B3 : Bd s3).
    { apply bd_end; [apply T|]. cbn [children]. intros c Hc. apply in_app_or in Hc. destruct Hc as [Hc|[[= <-]|[]]]; [|lia].
      apply in_map_iff in Hc. destruct Hc as [x [[= <-] Hx]]. apply Hbs. apply in_map_iff. now exists x. }
    destruct (gflags_total (g_blk s3) (g_next s3) (proj1 B3) bs Hbs) as [f2 [fl E]].
    exists (max f1 f2). eexists. eexists. split.
    + rewrite gather_switch.
      assert (X : ext (gcases f1 brk (g_next s) cs (addb s)) (gcases (max f1 f2) brk (g_next s) cs (addb s))).
      { generalize (addb s) as z. generalize (g_next s) as af. clear. induction cs as [|[v l] cs IH]; intros af z; cbn [gcases]; [apply ext_refl|].
        apply ext_bind; [apply block_fuel; apply Forall_forall; intros x _; apply gather_fuel; lia|]. intros [ca s2]. apply ext_bind; [apply IH|]. intros [bs s3]. apply ext_refl. }
      rewrite (X _ G). cbn [obind]. fold s3. rewrite (gflags_fuel f2 (max f1 f2) ltac:(lia) (g_blk s3) bs _ E). cbn [obind]. reflexivity.
    + constructor; [now apply bd_state|change (g_next s < g_next s2); lia|change (g_next s <= g_next s2); lia|]. intros n. exact (t_lbl _ _ _ _ T n).
  - destruct (block_tot l H (Some (S (S (g_next s)))) (S (g_next s)) (addb (addb (st_next (addb s) cur (g_next s)))) K) as [f [il [s5 [G T]]]].
    + do 2 apply bd_addb. apply bd_next; [now apply bd_addb|nx; lia].
    + nx. lia.
    + intros t [= <-]. nx. lia.
    + exact ND.
    + exact HL.
    + pose proof (t_next _ _ _ _ T) as L1. exists f. eexists. eexists. split; [rewrite gather_while, G; cbn [obind]; reflexivity|]. nx. constructor.
      * apply bd_state. apply bd_end; [apply bd_next; [exact (t_bd _ _ _ _ T)|nx; lia]|]. intros c [[= <-]|[[= <-]|[]]]; nx; lia.
      * change (S (S (g_next s)) < g_next s5). lia.
      * change (g_next s <= g_next s5). lia.
      * intros n. exact (t_lbl _ _ _ _ T n).
  - cbn in K. destruct brk as [t|]; [|discriminate]. specialize (Hb t eq_refl). exists 0. eexists. eexists. split; [reflexivity|].
    change (add_block (st_state (st_next s cur t) t true)) with (g_next s, addb (st_state (st_next s cur t) t true)). constructor; [|cbn; lia|cbn; lia|cbn; tauto].
    apply bd_addb. apply bd_state. now apply bd_next.
  - exists 0. eexists. eexists. split; [apply gather_step|]. constructor; [|cbn; lia|cbn; lia|cbn; tauto].
    apply bd_end; [apply bd_noskip; apply bd_state; now apply bd_addb|]. intros c [[= <-]|[]]. cbn. lia.
  - exists 0. cbn [gather]. rewrite (HL n) by now left. eexists. eexists. split; [reflexivity|].
    constructor; [|cbn; lia|cbn; lia|].
    + assert (X : Bd (st_next (addb s) cur (g_next s))) by (apply bd_next; [now apply bd_addb|cbn; lia]). destruct X as [X1 X2]. split; [exact X1|].
      intros m b [[= <- <-]|I]; [cbn; lia|exact (X2 m b I)].
    + intros m. cbn [labels In]. change (assoc m ((n, g_next s) :: g_lbl s) = None <-> assoc m (g_lbl s) = None /\ ~ (n = m \/ False)). cbn [assoc].
      destruct (Nat.eqb_spec n m); [split; [discriminate|tauto]|tauto].
  - exists 0. cbn [gather]. destruct (assoc n (g_lbl s)) as [b|] eqn:A.
    + exists (g_next s), (addb (st_state (st_next s cur b) b true)). split; [reflexivity|]. constructor; [|cbn; lia|cbn; lia|cbn; tauto].
      apply bd_addb. apply bd_state. apply bd_next; [exact HB|]. apply (proj2 HB n). now apply assoc_in.
    + set (s1 := {| g_next := g_next (st_end s cur (ENext None)); g_blk := g_blk (st_end s cur (ENext None)); g_last := g_last (st_end s cur (ENext None));
        g_lbl := g_lbl (st_end s cur (ENext None)); g_fwd := (n, cur) :: g_fwd (st_end s cur (ENext None)) |}).
      exists (g_next s1), (addb s1). split; [reflexivity|]. assert (X : Bd (st_end s cur (ENext None))) by (apply bd_end; [exact HB|intros c [Hc|[]]; discriminate]).
      constructor; [apply bd_addb; exact X|cbn; lia|cbn; lia|cbn; tauto].
  - exists 0, cur, (upd_blk s (add_ins (g_blk s) cur [IReturn])). split; [reflexivity|]. constructor; [now apply bd_ins|exact L|cbn; lia|cbn; tauto].
  - exists 0. eexists. eexists. split; [apply gather_join|]. constructor; [|cbn; lia|cbn; lia|cbn; tauto].
    apply bd_ins. apply bd_end; [apply bd_state; apply bd_addb; apply bd_next; [apply bd_state; now apply bd_addb|cbn; lia]|]. intros c [[= <-]|[[= <-]|[]]]; cbn; lia.
Qed.

(** * Chains of blocks executed in the same cycle are finite *)
Section Chains.
  Variable G : graph.
  Variable Lb : nat -> nat -> Prop.
  Definition flow (y x : nat) : Prop := In (Some y) (children (b_end (G x))) /\ b_state (G y) = false.
  Lemma acc_next b x : nexts G b x -> (b_state (G x) = false -> Acc flow x) -> Acc flow b.
  Proof. intros N H. constructor. intros y [Hy S]. unfold nexts in N. rewrite N in Hy. destruct Hy as [[= <-]|[]]. now apply H. Qed.
  Lemma acc_state b x : nexts G b x -> b_state (G x) = true -> Acc flow b.
  Proof. intros N S. apply (acc_next b x N). congruence. Qed.

  Lemma acc_ok :
    (forall brk st lo hi b i b' i', tr G Lb brk st lo hi b i b' i' -> Acc flow b' -> Acc flow b /\ forall x, lo <= x < hi -> Acc flow x) /\
    (forall brk l lo hi b i b' i', trl G Lb brk l lo hi b i b' i' -> Acc flow b' -> Acc flow b /\ forall x, lo <= x < hi -> Acc flow x) /\
    (forall brk l lo hi b i m, trb G Lb brk l lo hi b i m -> Acc flow m -> Acc flow b /\ forall x, lo <= x < hi -> Acc flow x) /\
    (forall brk af cs bs lo hi, trcs G Lb brk af cs bs lo hi -> Acc flow af -> forall x, lo <= x < hi \/ In x (map snd bs) -> Acc flow x).
  Proof.
    apply tr_mutind.
    - intros brk x e lo b i _ A. split; [exact A|lia].
    - intros brk lo b i _ A. split; [exact A|lia].
    - intros brk l lo hi b i m Tr IH A. exact (IH A).
    - intros brk e l lo m b i ia Fb Eb F1 F2 Tr IH Fi Ni Fe Ne Nm Sm A.
      assert (Ai : Acc flow ia) by (apply (acc_next ia m Ni); auto). assert (Ae : Acc flow (S lo)) by (apply (acc_next _ m Ne); auto).
      destruct (IH Ai) as [A1 A2]. split.
      + constructor. intros y [Hy S]. rewrite Eb in Hy. destruct Hy as [[= <-]|[[= <-]|[[= <-]|[]]]]; assumption.
      + intros x Hx. destruct (Nat.eq_dec x lo) as [ ->|N1]; [exact A1|]. destruct (Nat.eq_dec x (S lo)) as [ ->|N2]; [exact Ae|].
        destruct (Nat.eq_dec x m) as [ ->|N3]; [exact A|]. apply A2. lia.
    - intros brk e l1 l2 lo m1 m b i ia ea Fb Eb F1 F2 T1 IH1 Fi Ni T2 IH2 Fe Ne Nm Sm A.
      assert (Ai : Acc flow ia) by (apply (acc_next ia m Ni); auto). assert (Ae : Acc flow ea) by (apply (acc_next ea m Ne); auto).
      destruct (IH1 Ai) as [A1 A2]. destruct (IH2 Ae) as [B1 B2]. split.
      + constructor. intros y [Hy S]. rewrite Eb in Hy. destruct Hy as [[= <-]|[[= <-]|[[= <-]|[]]]]; assumption.
      + intros x Hx. destruct (Nat.eq_dec x lo) as [ ->|N1]; [exact A1|]. destruct (Nat.eq_dec x (S lo)) as [ ->|N2]; [exact B1|].
        destruct (Nat.eq_dec x m) as [ ->|N3]; [exact A|]. destruct (le_lt_dec m1 x); [apply B2; lia|apply A2; lia].
    - intros brk e cs bs lo hi b i Fb Eb Tr IH Nm Sm A. split.
      + constructor. intros y [Hy S]. rewrite Eb in Hy. cbn [children] in Hy. apply in_app_or in Hy. destruct Hy as [Hy|[[= <-]|[]]]; [|exact A].
        apply in_map_iff in Hy. destruct Hy as [z [[= <-] Hz]]. apply (IH A). right. apply in_map_iff. now exists z.
      + intros x Hx. destruct (Nat.eq_dec x lo) as [ ->|N1]; [exact A|]. apply (IH A). left. lia.
    - intros brk e l lo hi b i il Fb Nb Sl Kl Fl El F1 Kf Sa Tr IH Fi Ni A.
      destruct (IH (acc_state il lo Ni Sl)) as [A1 A2]. split; [exact (acc_state b lo Nb Sl)|].
      intros x Hx. destruct (Nat.eq_dec x lo) as [ ->|N1].
      { constructor. intros y [Hy S]. rewrite El in Hy. destruct Hy as [[= <-]|[[= <-]|[]]]; assumption. }
      destruct (Nat.eq_dec x (S lo)) as [ ->|N2]; [exact A1|]. destruct (Nat.eq_dec x (S (S lo))) as [ ->|N3]; [exact A|]. apply A2. lia.
    - intros t lo b i Fb Nb St F A. split; [exact (acc_state b t Nb St)|]. intros x Hx. assert (x = lo) by lia. now subst.
    - intros brk lo b i Fb Nb Sl Kl A. split; [exact (acc_state b lo Nb Sl)|]. intros x Hx. assert (x = lo) by lia. now subst.
    - intros brk n lo b i Fb Nb K Hl A. split; [apply (acc_next b lo Nb); auto|]. intros x Hx. assert (x = lo) by lia. now subst.
    - intros brk n lo b i Fb Hb F A. split; [|intros x Hx; assert (x = lo) by lia; now subst].
      destruct Hb as [Nb|[x [Nb [_ Sx]]]]; [|exact (acc_state b x Nb Sx)]. constructor. intros y [Hy _]. rewrite Nb in Hy. destruct Hy as [Hy|[]]. discriminate.
    - intros brk d rb lo b i rest Fb Nb Sl Kl Fl El S1 K1 I1 A. split; [exact (acc_state b lo Nb Sl)|].
      intros x Hx. destruct (Nat.eq_dec x lo) as [ ->|N1]; [|assert (x = S lo) by lia; now subst].
      constructor. intros y [Hy S]. rewrite El in Hy. destruct Hy as [[= <-]|[[= <-]|[]]]; congruence.
    - intros brk lo b i A. split; [exact A|lia].
    - intros brk x r lo m hi b i b1 i1 b2 i2 T1 IH1 T2 IH2 A. destruct (IH2 A) as [B1 B2]. destruct (IH1 B1) as [A1 A2]. split; [exact A1|].
      intros y Hy. destruct (le_lt_dec m y); [apply B2; lia|apply A2; lia].
    - intros brk l lo m b i a j Fb Nb F1 Tr IH Fa Na F2 A. destruct (IH (acc_next a m Na (fun _ => A))) as [A1 A2]. split; [apply (acc_next b lo Nb); auto|].
      intros x Hx. destruct (Nat.eq_dec x lo) as [ ->|N1]; [exact A1|]. destruct (Nat.eq_dec x m) as [ ->|N3]; [exact A|]. apply A2. lia.
    - intros brk af lo A x [Hx|[]]. lia.
    - intros brk af v l cs bs lo m hi a F Tr IH Fa Na T2 IH2 A x Hx. destruct (IH (acc_next a af Na (fun _ => A))) as [A1 A2].
      destruct Hx as [Hx|[ <-|Hx]]; [|exact A1|apply (IH2 A); now right].
      destruct (Nat.eq_dec x lo) as [ ->|N1]; [exact A1|]. destruct (le_lt_dec m x); [apply (IH2 A); left; lia|apply A2; lia].
  Qed.
End Chains.

(** * Chains of skipped blocks are finite *)
(** Instructions after which the current block is not skipped. *)
Definition slow (st : stmt) : bool :=
  match st with SAssign _ _ | SReturn | SStep => true | SJoin _ rb => match rb with [] => false | _ => true end | _ => false end.
(** Instructions such that the block before them is not skipped, or is skipped and followed by one that is not. *)
Definition hard (st : stmt) : bool :=
  match st with SBlock _ | SLabel _ | SGoto _ | SBreak => false | _ => true end.
(** Labels just before such an instruction. *)
Fixpoint firm (st : stmt) : list nat :=
  let firms := (fix firms (l : list stmt) : list nat :=
    match l with
    | [] => []
    | x :: r => match x, r with SLabel n, y :: _ => if hard y then n :: firms r else firms r | _, _ => firm x ++ firms r end
    end) in
  match st with
  | SBlock l => firms l
  | SIf _ l => firms l
  | SIfElse _ l1 l2 => firms l1 ++ firms l2
  | SSwitch _ cs => flat_map (fun c => firms (snd c)) cs
  | SWhile _ l => firms l
  | _ => []
  end.
Fixpoint firms (l : list stmt) : list nat :=
  match l with
  | [] => []
  | x :: r => match x, r with SLabel n, y :: _ => if hard y then n :: firms r else firms r | _, _ => firm x ++ firms r end
  end.
(** Every jump comes just after an instruction that takes time or writes, or goes to a firm label. *)
Fixpoint held (F : list nat) (st : stmt) : bool :=
  let helds := (fix helds (pv : bool) (l : list stmt) : bool :=
    match l with
    | [] => true
    | x :: r => match x with SGoto n => pv || memb n F | _ => held F x end && helds (slow x) r
    end) in
  match st with
  | SBlock l => helds false l
  | SIf _ l => helds false l
  | SIfElse _ l1 l2 => helds false l1 && helds false l2
  | SSwitch _ cs => forallb (fun c => helds false (snd c)) cs
  | SWhile _ l => helds false l
  | SGoto n => memb n F
  | _ => true
  end.
Definition helds (F : list nat) : bool -> list stmt -> bool :=
  fix helds (pv : bool) (l : list stmt) : bool :=
    match l with
    | [] => true
    | x :: r => match x with SGoto n => pv || memb n F | _ => held F x end && helds (slow x) r
    end.

Section Skips.
  Variable G : graph.
  Variable Lb : nat -> nat -> Prop.
  Definition hop (y x : nat) : Prop := b_ins (G x) = [] /\ b_end (G x) = ENext (Some y) /\ b_noskip (G y) = false.
  Definition fin (x : nat) : Prop := b_noskip (G x) = true \/ Acc hop x.
  Lemma fin_intro x : (forall y, hop y x -> fin y) -> fin x.
  Proof. intros H. right. constructor. intros y Hy. destruct (H y Hy) as [X|X]; [destruct Hy as [_ [_ Hy]]; congruence|exact X]. Qed.
  Lemma fin_next b x : nexts G b x -> (b_noskip (G x) = false -> fin x) -> fin b.
  Proof. intros N H. apply fin_intro. intros y [_ [Hy K]]. unfold nexts in N. rewrite N in Hy. injection Hy as <-. now apply H. Qed.
  Lemma fin_end b : (forall x, b_end (G b) <> ENext (Some x)) -> fin b.
  Proof. intros N. apply fin_intro. intros y [_ [Hy _]]. now apply N in Hy. Qed.
  Lemma fin_ins b : b_ins (G b) <> [] -> fin b.
  Proof. intros N. apply fin_intro. intros y [Hy _]. contradiction. Qed.
  Lemma fin_nth b i k : nth_error (b_ins (G b)) i = Some k -> fin b.
  Proof. intros N. apply fin_ins. intros E. rewrite E in N. destruct i; discriminate. Qed.
  Lemma fin_full b i : full G b i -> 0 < i -> fin b.
  Proof. unfold full. intros N L. apply fin_ins. intros E. rewrite E in N. cbn in N. lia. Qed.

  Lemma hard_ok brk st lo hi b i b' i' : tr G Lb brk st lo hi b i b' i' -> hard st = true -> fin b.
  Proof.
    intros H. destruct H; cbn [hard]; try discriminate; intros _.
    - eapply fin_nth; eassumption.
    - eapply fin_nth; eassumption.
    - apply fin_end. intros x E. congruence.
    - apply fin_end. intros x E. congruence.
    - apply fin_end. intros x E. congruence.
    - apply (fin_next b lo); [assumption|]. intros _. apply fin_end. intros x E. congruence.
    - apply (fin_next b lo); [assumption|]. congruence.
    - apply (fin_next b lo); [assumption|]. intros _. apply fin_end. intros x E. congruence.
  Qed.

  Hypothesis Lfun : forall n x y, Lb n x -> Lb n y -> x = y.
  Lemma firms_cons x r : firms (x :: r) = match x, r with SLabel n, y :: _ => if hard y then n :: firms r else firms r | _, _ => firm x ++ firms r end.
  Proof. reflexivity. Qed.
  Lemma firm_ok :
    (forall brk st lo hi b i b' i', tr G Lb brk st lo hi b i b' i' -> forall n x, In n (firm st) -> Lb n x -> fin x) /\
    (forall brk l lo hi b i b' i', trl G Lb brk l lo hi b i b' i' -> forall n x, In n (firms l) -> Lb n x -> fin x) /\
    (forall brk l lo hi b i m, trb G Lb brk l lo hi b i m -> forall n x, In n (firms l) -> Lb n x -> fin x) /\
    (forall brk af cs bs lo hi, trcs G Lb brk af cs bs lo hi -> forall n x, In n (flat_map (fun c => firms (snd c)) cs) -> Lb n x -> fin x).
  Proof.
    apply tr_mutind; try (intros; cbn in *; contradiction).
    - intros brk l lo hi b i m Tr IH n x Hn. exact (IH n x Hn).
    - intros brk e l lo m b i ia Fb Eb F1 F2 Tr IH Fi Ni Fe Ne Nm Sm n x Hn. exact (IH n x Hn).
    - intros brk e l1 l2 lo m1 m b i ia ea Fb Eb F1 F2 T1 IH1 Fi Ni T2 IH2 Fe Ne Nm Sm n x Hn. change (In n (firms l1 ++ firms l2)) in Hn. apply in_app_or in Hn. destruct Hn as [Hn|Hn]; eauto.
    - intros brk e cs bs lo hi b i Fb Eb Tr IH Nm Sm n x Hn. exact (IH n x Hn).
    - intros brk e l lo hi b i il Fb Nb Sl Kl Fl El F1 Kf Sa Tr IH Fi Ni n x Hn. exact (IH n x Hn).
    - intros brk x r lo m hi b i b1 i1 b2 i2 T1 IH1 T2 IH2 n z Hn Hz. rewrite firms_cons in Hn.
      assert (K : In n (firm x ++ firms r) -> fin z) by (intros X; apply in_app_or in X; destruct X as [X|X]; eauto).
      destruct x; try (now apply K). destruct r as [|y r]; [now apply K|]. destruct (hard y) eqn:Hy; [|now apply (IH2 n z)].
      destruct Hn as [ ->|Hn]; [|now apply (IH2 n z)].
      inversion T1; subst. inversion T2; subst. rewrite (Lfun n z b1 Hz) by assumption. eapply hard_ok; eassumption.
    - intros brk l lo m b i a j Fb Nb F1 Tr IH Fa Na F2 n x Hn. exact (IH n x Hn).
    - intros brk af v l cs bs lo m hi a F Tr IH Fa Na T2 IH2 n x Hn. cbn [flat_map snd] in Hn. apply in_app_or in Hn. destruct Hn as [Hn|Hn]; eauto.
  Qed.

  Variable F : list nat.
  Hypothesis HF : forall n x, In n F -> Lb n x -> fin x.
  Definition goes (st : stmt) : option nat := match st with SGoto n => Some n | _ => None end.
  Lemma slow_ok brk st lo hi b i b' i' : tr G Lb brk st lo hi b i b' i' -> slow st = true -> 0 < i' \/ b_noskip (G b') = true.
  Proof.
    intros H. destruct H; cbn [slow]; try discriminate; intros Hs; try (left; lia); try (right; assumption).
    left. destruct rb; [discriminate|cbn; lia].
  Qed.
  Lemma helds_cons pv x r : helds F pv (x :: r) = match x with SGoto n => pv || memb n F | _ => held F x end && helds F (slow x) r.
  Proof. reflexivity. Qed.

  Lemma fin_ok :
    (forall brk st lo hi b i b' i', tr G Lb brk st lo hi b i b' i' -> (match st with SGoto n => fin b \/ In n F | _ => held F st = true end) ->
       (forall t, brk = Some t -> fin t) -> fin b' -> fin b /\ forall x, lo <= x < hi -> fin x) /\
    (forall brk l lo hi b i b' i', trl G Lb brk l lo hi b i b' i' -> forall pv, helds F pv l = true -> (pv = true -> 0 < i \/ b_noskip (G b) = true) ->
       (forall t, brk = Some t -> fin t) -> fin b' -> fin b /\ forall x, lo <= x < hi -> fin x) /\
    (forall brk l lo hi b i m, trb G Lb brk l lo hi b i m -> helds F false l = true -> (forall t, brk = Some t -> fin t) -> fin m -> fin b /\ forall x, lo <= x < hi -> fin x) /\
    (forall brk af cs bs lo hi, trcs G Lb brk af cs bs lo hi -> forallb (fun c => helds F false (snd c)) cs = true -> (forall t, brk = Some t -> fin t) -> fin af ->
       forall x, lo <= x < hi -> fin x).
  Proof.
    apply tr_mutind.
    - intros brk x e lo b i H _ _ A. split; [exact A|lia].
    - intros brk lo b i H _ _ A. split; [exact A|lia].
    - intros brk l lo hi b i m Tr IH H Hb A. exact (IH H Hb A).
    - intros brk e l lo m b i ia Fb Eb F1 F2 Tr IH Fi Ni Fe Ne Nm Sm H Hb A.
      destruct (IH H Hb (fin_next ia m Ni (fun _ => A))) as [A1 A2]. split; [apply fin_end; intros x E; congruence|].
      intros x Hx. destruct (Nat.eq_dec x lo) as [ ->|N1]; [exact A1|]. destruct (Nat.eq_dec x (S lo)) as [ ->|N2]; [exact (fin_next _ m Ne (fun _ => A))|].
      destruct (Nat.eq_dec x m) as [ ->|N3]; [exact A|]. apply A2. lia.
    - intros brk e l1 l2 lo m1 m b i ia ea Fb Eb F1 F2 T1 IH1 Fi Ni T2 IH2 Fe Ne Nm Sm H Hb A.
      change (helds F false l1 && helds F false l2 = true) in H. apply andb_true_iff in H. destruct H as [H1 H2].
      destruct (IH1 H1 Hb (fin_next ia m Ni (fun _ => A))) as [A1 A2]. destruct (IH2 H2 Hb (fin_next ea m Ne (fun _ => A))) as [B1 B2].
      split; [apply fin_end; intros x E; congruence|].
      intros x Hx. destruct (Nat.eq_dec x lo) as [ ->|N1]; [exact A1|]. destruct (Nat.eq_dec x (S lo)) as [ ->|N2]; [exact B1|].
      destruct (Nat.eq_dec x m) as [ ->|N3]; [exact A|]. destruct (le_lt_dec m1 x); [apply B2; lia|apply A2; lia].
    - intros brk e cs bs lo hi b i Fb Eb Tr IH Nm Sm H Hb A. split; [apply fin_end; intros x E; congruence|].
      intros x Hx. destruct (Nat.eq_dec x lo) as [ ->|N1]; [exact A|]. apply (IH H Hb A). lia.
    - intros brk e l lo hi b i il Fb Nb Sl Kl Fl El F1 Kf Sa Tr IH Fi Ni H Hb A.
      assert (Al : fin lo) by (apply fin_end; intros x E; congruence).
      destruct (IH H) as [A1 A2]; [intros t [= <-]; exact A|exact (fin_next il lo Ni (fun _ => Al))|]. split; [exact (fin_next b lo Nb (fun _ => Al))|].
      intros x Hx. destruct (Nat.eq_dec x lo) as [ ->|N1]; [exact Al|]. destruct (Nat.eq_dec x (S lo)) as [ ->|N2]; [exact A1|].
      destruct (Nat.eq_dec x (S (S lo))) as [ ->|N3]; [exact A|]. apply A2. lia.
    - intros t lo b i Fb Nb St Fr H Hb A. split; [exact (fin_next b t Nb (fun _ => Hb t eq_refl))|]. intros x Hx. assert (x = lo) by lia. now subst.
    - intros brk lo b i Fb Nb Sl Kl H Hb A. split; [exact (fin_next b lo Nb (fun _ => A))|]. intros x Hx. assert (x = lo) by lia. now subst.
    - intros brk n lo b i Fb Nb K Hl H Hb A. split; [exact (fin_next b lo Nb (fun _ => A))|]. intros x Hx. assert (x = lo) by lia. now subst.
    - intros brk n lo b i Fb Hj Fr H Hb A. split; [|intros x Hx; assert (x = lo) by lia; now subst].
      destruct H as [H|H]; [exact H|]. destruct Hj as [Nb|[x [Nb [Hx Sx]]]]; [apply fin_end; intros x E; congruence|]. exact (fin_next b x Nb (fun _ => HF n x H Hx)).
    - intros brk d rb lo b i rest Fb Nb Sl Kl Fl El S1 K1 I1 H Hb A.
      assert (Al : fin lo) by (apply fin_end; intros x E; congruence). split; [exact (fin_next b lo Nb (fun _ => Al))|].
      intros x Hx. destruct (Nat.eq_dec x lo) as [ ->|N1]; [exact Al|]. assert (x = S lo) by lia. now subst.
    - intros brk lo b i pv _ _ _ A. split; [exact A|lia].
    - intros brk x r lo m hi b i b1 i1 b2 i2 T1 IH1 T2 IH2 pv H Hp Hb A. rewrite helds_cons in H. apply andb_true_iff in H. destruct H as [H1 H2].
      destruct (IH2 (slow x) H2 (slow_ok _ _ _ _ _ _ _ _ T1) Hb A) as [B1 B2].
      assert (C : match x with SGoto n => fin b \/ In n F | _ => held F x = true end).
      { destruct x; try exact H1. apply orb_true_iff in H1. destruct H1 as [H1|H1]; [|right; now apply memb_In]. left.
        destruct (Hp H1) as [X|X]; [|now left]. inversion T1; subst. eapply fin_full; eassumption. }
      destruct (IH1 C Hb B1) as [A1 A2]. split; [exact A1|]. intros y Hy. destruct (le_lt_dec m y); [apply B2; lia|apply A2; lia].
    - intros brk l lo m b i a j Fb Nb F1 Tr IH Fa Na F2 H Hb A. destruct (IH false H ltac:(discriminate) Hb (fin_next a m Na (fun _ => A))) as [A1 A2].
      split; [exact (fin_next b lo Nb (fun _ => A1))|].
      intros x Hx. destruct (Nat.eq_dec x lo) as [ ->|N1]; [exact A1|]. destruct (Nat.eq_dec x m) as [ ->|N3]; [exact A|]. apply A2. lia.
    - intros brk af lo _ _ A x Hx. lia.
    - intros brk af v l cs bs lo m hi a Fr Tr IH Fa Na T2 IH2 H Hb A x Hx. cbn [forallb snd] in H. apply andb_true_iff in H. destruct H as [H1 H2].
      destruct (IH H1 Hb (fin_next a af Na (fun _ => A))) as [A1 A2].
      destruct (Nat.eq_dec x lo) as [ ->|N1]; [exact A1|]. destruct (le_lt_dec m x); [apply (IH2 H2 Hb A); lia|apply A2; lia].
  Qed.
End Skips.

Lemma fin_ff g b : (forall b, b_end (g b) <> ENext None) -> fin g b -> exists f y, fast_forward f g b = Some y.
Proof.
  intros U [H|H]; [exists 0, b; unfold fast_forward; now rewrite H|]. destruct (b_noskip (g b)) eqn:N; [exists 0, b; unfold fast_forward; now rewrite N|].
  apply fast_forward_ends; [exact U|exact N|]. clear N. induction H as [b _ IH].
  destruct (b_ins (g b)) as [|k l] eqn:E; [|apply en_stop; intros n I; congruence].
  destruct (b_end (g b)) as [|[n|]| | | | | |] eqn:E2; try (apply en_stop; intros n0 _ X; congruence).
  destruct (b_noskip (g n)) eqn:K; [apply en_stop; intros n0 _ X; congruence|]. eapply en_next; [exact E|exact E2|exact K|]. apply IH. repeat split; assumption.
Qed.
Lemma fin_all g N : (forall b, b_end (g b) <> ENext None) -> (forall b, b < N -> fin g b) -> exists F, forall b f, b < N -> F <= f -> exists y, fast_forward f g b = Some y.
Proof.
  intros U H. induction N as [|N IH]; [exists 0; intros; lia|]. destruct IH as [F1 IH]; [intros b L; apply H; lia|].
  destruct (fin_ff g N U (H N ltac:(lia))) as [F2 [y E]]. exists (max F1 F2). intros b f L LF. destruct (Nat.eq_dec b N) as [ ->|Nb]; [exists y; apply fast_forward_fuel with F2; [exact E|lia]|].
  apply IH; lia.
Qed.

(** * Numbering *)
Lemma child_next (g : graph) b n : b_end (g b) = ENext (Some n) -> In (Some n) (children (b_end (g b))).
Proof. intros ->. now left. Qed.
Section Number.
  Variables (g : graph) (N ff : nat).
  Hypothesis HB : Bc g N.
  Hypothesis U : forall b, b_end (g b) <> ENext None.
  Hypothesis HF : forall b, b < N -> exists y, fast_forward ff g b = Some y.
  Hypothesis S0 : b_state (g 0) = true.
  Hypothesis N0 : 0 < N.

  Lemma ff_bound : forall f l cur y, ff_loop f g l cur = Some y -> l < N -> cur < N -> y < N.
  Proof.
    induction f as [|f IH]; intros l cur y H L C; cbn [ff_loop] in H; [discriminate|]. destruct (negb (block_empty (g cur))); [congruence|].
    destruct (b_end (g cur)) as [|[n|]| | | | | |] eqn:E; try congruence. pose proof (HB cur n C (child_next g cur n E)). destruct (b_noskip (g n)); [congruence|].
    apply (IH _ _ _ H); [destruct (b_state (g n)); assumption|assumption].
  Qed.
  Lemma fast_forward_bound b y : fast_forward ff g b = Some y -> b < N -> y < N.
  Proof. unfold fast_forward. destruct (b_noskip (g b)); [congruence|]. intros H L. eapply ff_bound; eassumption. Qed.
  Lemma children_some b c : In c (children (b_end (g b))) -> exists c', c = Some c'.
  Proof.
    intros H. destruct c as [c|]; [now exists c|]. exfalso. destruct (b_end (g b)) as [|[n|]| | | | | |] eqn:E; cbn in H; try tauto; try (now apply U in E);
      try (repeat destruct H as [H|H]; discriminate || contradiction).
    - apply in_app_or in H. destruct H as [H|[H|[]]]; [|discriminate]. apply in_map_iff in H. destruct H as [x [X _]]. discriminate.
    - apply in_map_iff in H. destruct H as [x [X _]]. discriminate.
  Qed.

  Lemma push_total p : p <> None -> forall cs q r, (forall c, In c cs -> exists c', c = Some c' /\ c' < N) -> NoDup (r_vis r) -> (forall x, In x (r_vis r) -> x < N) ->
    exists q2 r2, push_children ff g p cs q r = Some (q2, r2) /\ NoDup (r_vis r2) /\ (forall x, In x (r_vis r2) -> x < N) /\
      length q2 + length (r_vis r) = length q + length (r_vis r2).
  Proof.
    intros Hp. induction cs as [|c cs IH]; intros q r HC ND HV; cbn [push_children]; [exists q, r; auto|].
    destruct (HC c ltac:(now left)) as [c' [-> Lc]]. assert (HC' : forall c, In c cs -> exists c', c = Some c' /\ c' < N) by (intros x Hx; apply HC; now right).
    assert (X : exists y, (if b_state (g c') then fast_forward ff g c' else Some c') = Some y /\ y < N).
    { destruct (b_state (g c')); [|now exists c']. destruct (HF c' Lc) as [y E]. exists y. split; [exact E|]. now apply fast_forward_bound with c'. }
    destruct X as [y [-> Ly]]. cbn [obind]. destruct (memb y (r_vis r)) eqn:M; [now apply IH|]. apply memb_notIn in M. destruct p as [p|]; [|congruence].
    edestruct (IH (q ++ [(y, Some p)])) as [q2 [r2 [E [A1 [A2 A3]]]]]; [exact HC'| | |exists q2, r2; split; [exact E|]; split; [exact A1|]; split; [exact A2|]].
    - cbn. now constructor.
    - cbn. intros x [ <-|Hx]; auto.
    - rewrite app_length in A3. cbn in A3. lia.
  Qed.

  Record W (q : list (nat * option nat)) (r : rst) : Prop := {
    w_nd : NoDup (map fst q);
    w_q : forall b, inq q b -> In b (r_vis r);
    w_sid : forall b, inq q b -> r_sid r b = None;
    w_par : forall b p, In (b, p) q -> p = None -> b_state (g b) = true;
    w_vis : forall b i, r_sid r b = Some i -> In b (r_vis r);
    w_ndv : NoDup (r_vis r);
    w_lt : forall b, In b (r_vis r) -> b < N
  }.
  Lemma w_push p b q r q2 r2 : p <> None -> W q r -> In b (r_vis r) -> push_children ff g p (children (b_end (g b))) q r = Some (q2, r2) ->
    NoDup (r_vis r2) -> (forall x, In x (r_vis r2) -> x < N) -> W q2 r2.
  Proof.
    intros Hp H Vb E A1 A2. destruct (push_ok ff g p _ _ _ _ _ E (w_nd _ _ H) (w_q _ _ H)) as [nw [P1 [P2 [P3 [P4 [P5 [P6 [P7 [P8 _]]]]]]]]]. subst q2.
    assert (SP : forall x, inq (q ++ nw) x -> inq q x \/ In x (map fst nw)).
    { intros x [y Hy]. apply in_app_or in Hy. destruct Hy as [Hy|Hy]; [left; now exists y|right; apply in_map_iff; now exists (x, y)]. }
    constructor; [exact P3| | | | |exact A1|exact A2].
    - intros x Hx. apply P4. destruct (SP x Hx) as [X|X]; [left; now apply (w_q _ _ H)|now right].
    - intros x Hx. rewrite P7. destruct (SP x Hx) as [X|X]; [now apply (w_sid _ _ H)|]. destruct (r_sid r x) eqn:Es; [|reflexivity]. exfalso.
      apply (P5 x X). now apply (w_vis _ _ H x n).
    - intros x p' Hx Hn. apply in_app_or in Hx. destruct Hx as [Hx|Hx]; [now apply (w_par _ _ H x p')|]. destruct (P2 x p' Hx) as [X1 X2]. congruence.
    - intros x i Hx. rewrite P7 in Hx. apply P4. left. now apply (w_vis _ _ H x i).
  Qed.

  Lemma renum_total : forall f q r, W q r -> N + length q <= f + length (r_vis r) -> exists r', renumber_loop f ff g q r = Some r'.
  Proof.
    induction f as [|f IH]; intros [|[b p] q] r H L; try (now exists r).
    - exfalso. assert (X : length (r_vis r) <= length (seq 0 N)).
      { apply NoDup_incl_length; [exact (w_ndv _ _ H)|]. intros x Hx. apply in_seq. pose proof (w_lt _ _ H x Hx). lia. }
      rewrite seq_length in X. cbn in L. lia.
    - cbn [renumber_loop]. assert (Vb : In b (r_vis r)) by (apply (w_q _ _ H); exists p; now left).
      assert (CS : forall c, In c (children (b_end (g b))) -> exists c', c = Some c' /\ c' < N).
      { intros c Hc. destruct (children_some b c Hc) as [c' ->]. exists c'. split; [reflexivity|]. apply (HB b c'); [now apply (w_lt _ _ H)|exact Hc]. }
      pose proof (w_nd _ _ H) as ND. cbn in ND. inversion ND as [|? ? Nb NDq]; subst.
      assert (IQ : forall x, inq q x -> inq ((b, p) :: q) x) by (intros x [y Hy]; exists y; now right).
      destruct (b_state (g b)) eqn:S.
      + rewrite (w_sid _ _ H b) by (exists p; now left).
        set (r1 := {| r_sid := fset (r_sid r) b (Some (r_max r)); r_par := fset (r_par r) b (Some (r_max r)); r_max := Datatypes.S (r_max r); r_vis := r_vis r |}).
        assert (W1 : W q r1).
        { constructor; cbn; [exact NDq| | | | |exact (w_ndv _ _ H)|exact (w_lt _ _ H)].
          - intros x Hx. apply (w_q _ _ H). now apply IQ.
          - intros x Hx. rewrite fset_other; [apply (w_sid _ _ H); now apply IQ|]. intros ->. apply Nb. destruct Hx as [y Hy]. apply in_map_iff. now exists (b, y).
          - intros x p' Hx. apply (w_par _ _ H x p'). now right.
          - intros x i Hx. destruct (Nat.eq_dec x b) as [ ->|Nx]; [exact Vb|]. rewrite fset_other in Hx by exact Nx. now apply (w_vis _ _ H x i). }
        destruct (push_total (Some (r_max r)) ltac:(discriminate) _ q r1 CS (w_ndv _ _ H) (w_lt _ _ H)) as [q2 [r2 [E [A1 [A2 A3]]]]]. rewrite E. cbn [obind].
        apply IH; [|cbn in A3, L; lia]. apply (w_push (Some (r_max r)) b q r1); try assumption. discriminate.
      + assert (Hp : p <> None) by (intros ->; rewrite (w_par _ _ H b None) in S; [discriminate|now left|reflexivity]).
        assert (W1 : W q r).
        { constructor; [exact NDq| | | |exact (w_vis _ _ H)|exact (w_ndv _ _ H)|exact (w_lt _ _ H)].
          - intros x Hx. apply (w_q _ _ H). now apply IQ.
          - intros x Hx. apply (w_sid _ _ H). now apply IQ.
          - intros x p' Hx. apply (w_par _ _ H x p'). now right. }
        destruct (push_total p Hp _ q r CS (w_ndv _ _ H) (w_lt _ _ H)) as [q2 [r2 [E [A1 [A2 A3]]]]]. rewrite E. cbn [obind].
        apply IH; [|cbn in A3, L; lia]. apply (w_push p b q r); assumption.
  Qed.
  Lemma renumber_total : N <= ff -> exists r, renumber ff g = Some r.
  Proof.
    intros L. unfold renumber. apply renum_total; [|cbn; lia]. constructor; cbn.
    - constructor; [intros []|constructor].
    - intros b [p [[= <- <-]|[]]]. now left.
    - reflexivity.
    - intros b p [[= <- <-]|[]] _. exact S0.
    - discriminate.
    - constructor; [intros []|constructor].
    - intros b [ <-|[]]. exact N0.
  Qed.
  Lemma ren_bound r : Ren ff g r -> forall b, In b (r_vis r) -> b < N.
  Proof.
    intros H. apply (n_min _ _ _ H (fun b => b < N)); [|exact N0]. intros b c y L Hc T. pose proof (HB b c L Hc) as Lc. unfold tgt in T.
    destruct (b_state (g c)); [now apply fast_forward_bound with c|congruence].
  Qed.
End Number.

(** * The pass against duplicated code *)
Lemma prevent_total r unr (E0 : nat -> endact) : (forall b e ib fi it eb fe et af, unr b = false -> E0 b = EIf e ib fi it eb fe et af -> (fi = true -> dead r it = false) /\ (fe = true -> dead r et = false)) ->
  forall bs g ch, (forall b, b_end (g b) = E0 b) -> exists g' ch', prevent r unr bs g ch = Some (g', ch').
Proof.
  intros H. induction bs as [|b bs IH]; intros g ch HE; cbn [prevent]; [now exists g, ch|]. destruct (unr b) eqn:UB; [now apply IH|].
  destruct (b_end (g b)) as [|n|e ib fi it eb fe et af|e cs af|e it af|e w n|c sv cid go rt|c rets] eqn:E; try (now apply IH).
  destruct (b_state (g af)); [now apply IH|]. rewrite HE in E. destruct (H b _ _ _ _ _ _ _ _ UB E) as [H1 H2].
  destruct (dead r it && fi || dead r et && fe) eqn:D.
  - exfalso. apply orb_true_iff in D. destruct D as [D|D]; apply andb_true_iff in D; destruct D as [D1 D2]; [rewrite H1 in D1|rewrite H2 in D1]; congruence.
  - apply IH. intros x. rewrite <- HE. unfold set_state, gset. destruct (Nat.eqb_spec x af) as [ ->|Nx]; reflexivity.
Qed.

(** The end of a branch without cycle boundary is reached. *)
Section Flags.
  Variable G : graph.
  Variable Lb : nat -> nat -> Prop.
  Variable T : list nat.
  Hypothesis HT : forall n x, Lb n x -> b_state (G x) = true -> In n T.
  Variable V : nat -> Prop.
  Hypothesis Vc : forall b c, V b -> In (Some c) (children (b_end (G b))) -> b_state (G c) = false -> V c.
  Definition flagged (x : nat) : Prop := forall e ib fi it eb fe et af, b_end (G x) = EIf e ib fi it eb fe et af -> (fi = true -> V it) /\ (fe = true -> V et).
  Lemma flagged_next b x : nexts G b x -> flagged b.
  Proof. unfold nexts, flagged. intros E e ib fi it eb fe et af X. congruence. Qed.
  Lemma flags_ok :
    (forall brk st lo hi b i b' i', tr G Lb brk st lo hi b i b' i' -> b < lo -> nojump T st = true -> forall x, own2 lo hi b b' x -> V x -> flagged x) /\
    (forall brk l lo hi b i b' i', trl G Lb brk l lo hi b i b' i' -> b < lo -> nojumps T l = true -> forall x, own2 lo hi b b' x -> V x -> flagged x) /\
    (forall brk l lo hi b i m, trb G Lb brk l lo hi b i m -> b < lo -> nojumps T l = true -> forall x, own2 lo hi b m x -> V x -> flagged x) /\
    (forall brk af cs bs lo hi, trcs G Lb brk af cs bs lo hi -> forallb (fun c => nojumps T (snd c)) cs = true -> forall x, lo <= x < hi -> V x -> flagged x).
  Proof.
    destruct (tr_exit G Lb) as [X1 [X2 [X3 X4]]]. destruct (through_ok G Lb T HT V Vc) as [_ [_ [TH3 _]]].
    apply tr_mutind.
    - unfold own2. intros; lia.
    - unfold own2. intros; lia.
    - intros brk l lo hi b i m Tr IH L NJ. exact (IH L NJ).
    - intros brk e l lo m b i ia Fb Eb F1 F2 Tr IH Fi Ni Fe Ne Nm Sm L NJ x [H1 H2] Vx.
      cbn in NJ. apply andb_true_iff in NJ. destruct NJ as [Ql NJ]. destruct (X3 _ _ _ _ _ _ _ Tr) as [Y1 Y2].
      destruct (Nat.eq_dec x b) as [ ->|N0].
      + intros e' ib fi it eb fe et af E. rewrite Eb in E. injection E as <- <- <- <- <- <- <- <-.
        assert (Vi : V lo) by (apply (Vc b lo Vx); [rewrite Eb; now left|apply F1]). assert (Ve : V (S lo)) by (apply (Vc b (S lo) Vx); [rewrite Eb; cbn; auto|apply F2]).
        split; [|auto]. intros Tl. eapply TH3; [exact Tr|exact Tl|now apply quiet_of|exact Vi].
      + destruct (Nat.eq_dec x ia) as [ ->|N1]; [now apply (flagged_next _ m)|]. destruct (Nat.eq_dec x (S lo)) as [ ->|N2]; [now apply (flagged_next _ m)|].
        apply IH; [lia|exact NJ|unfold own2; lia|exact Vx].
    - intros brk e l1 l2 lo m1 m b i ia ea Fb Eb F1 F2 T1 IH1 Fi Ni T2 IH2 Fe Ne Nm Sm L NJ x [H1 H2] Vx.
      cbn in NJ. apply andb_true_iff in NJ. destruct NJ as [NJ NJ2]. apply andb_true_iff in NJ. destruct NJ as [NJ NJ1]. apply andb_true_iff in NJ. destruct NJ as [Ql1 Ql2].
      destruct (X3 _ _ _ _ _ _ _ T1) as [Y1 Y2]. destruct (X3 _ _ _ _ _ _ _ T2) as [Y3 Y4].
      destruct (Nat.eq_dec x b) as [ ->|N0].
      + intros e' ib fi it eb fe et af E. rewrite Eb in E. injection E as <- <- <- <- <- <- <- <-.
        assert (Vi : V lo) by (apply (Vc b lo Vx); [rewrite Eb; now left|apply F1]). assert (Ve : V (S lo)) by (apply (Vc b (S lo) Vx); [rewrite Eb; cbn; auto|apply F2]).
        split; intros Tl; [eapply TH3; [exact T1|exact Tl|now apply quiet_of|exact Vi]|eapply TH3; [exact T2|exact Tl|now apply quiet_of|exact Ve]].
      + destruct (Nat.eq_dec x ia) as [ ->|N1]; [now apply (flagged_next _ m)|]. destruct (Nat.eq_dec x ea) as [ ->|N2]; [now apply (flagged_next _ m)|].
        assert (O : own2 (S (S lo)) m1 lo ia x \/ own2 m1 m (S lo) ea x) by (unfold own2; lia). destruct O as [O|O]; [apply IH1|apply IH2]; try assumption; lia.
    - intros brk e cs bs lo hi b i Fb Eb Tr IH Nm Sm L NJ x [H1 H2] Vx. cbn in NJ. apply andb_true_iff in NJ. destruct NJ as [Ql NJ].
      destruct (Nat.eq_dec x b) as [ ->|N0]; [intros e' ib fi it eb fe et af E; congruence|]. apply IH; [exact NJ|lia|exact Vx].
    - intros brk e l lo hi b i il Fb Nb Sl Kl Fl El F1 Kf Sa Tr IH Fi Ni L NJ x [H1 H2] Vx. destruct (X3 _ _ _ _ _ _ _ Tr) as [Y1 Y2].
      destruct (Nat.eq_dec x b) as [ ->|N0]; [now apply (flagged_next _ lo)|]. destruct (Nat.eq_dec x il) as [ ->|N1]; [now apply (flagged_next _ lo)|].
      destruct (Nat.eq_dec x lo) as [ ->|N2]; [intros e' ib fi it eb fe et af E; congruence|]. apply IH; [lia|exact NJ|unfold own2; lia|exact Vx].
    - intros t lo b i Fb Nb St F L _ x [H1 H2] _. assert (x = b) by lia. subst. now apply (flagged_next _ t).
    - intros brk lo b i Fb Nb St K L _ x [H1 H2] _. assert (x = b) by lia. subst. now apply (flagged_next _ lo).
    - intros brk n lo b i Fb Nb K Hl L _ x [H1 H2] _. assert (x = b) by lia. subst. now apply (flagged_next _ lo).
    - intros brk n lo b i Fb Hj F L _ x [H1 H2] _. assert (x = b) by lia. subst. destruct Hj as [Nb|[y [Nb _]]]; [|now apply (flagged_next _ y)].
      intros e' ib fi it eb fe et af E. congruence.
    - intros brk d rb lo b i rest Fb Nb Sl Kl Fl El Sn Kn Hi L _ x [H1 H2] _. assert (O : x = b \/ x = lo) by lia. destruct O as [ ->| ->]; [now apply (flagged_next _ lo)|].
      intros e' ib fi it eb fe et af E. congruence.
    - unfold own2. intros; lia.
    - intros brk x r0 lo m hi b i b1 i1 b2 i2 T1 IH1 T2 IH2 L NJ y [H1 H2] Vy. cbn in NJ. apply andb_true_iff in NJ. destruct NJ as [NJ1 NJ2].
      destruct (X1 _ _ _ _ _ _ _ _ T1) as [Y1 Y2]. destruct (X2 _ _ _ _ _ _ _ _ T2) as [Y3 Y4].
      assert (O : own2 lo m b b1 y \/ own2 m hi b1 b2 y) by (unfold own2; lia). destruct O as [O|O]; [apply IH1|apply IH2]; try assumption; lia.
    - intros brk l lo m b i a j Fb Nb F1 Tr IH Fa Na F2 L NJ x [H1 H2] Vx. destruct (X2 _ _ _ _ _ _ _ _ Tr) as [Y1 Y2].
      destruct (Nat.eq_dec x b) as [ ->|N0]; [now apply (flagged_next _ lo)|]. destruct (Nat.eq_dec x a) as [ ->|N1]; [now apply (flagged_next _ m)|].
      apply IH; [lia|exact NJ|unfold own2; lia|exact Vx].
    - intros. lia.
    - intros brk af v l cs bs lo m hi a F Tr IH Fa Na T2 IH2 NJ x Hx Vx. cbn [forallb snd] in NJ. apply andb_true_iff in NJ. destruct NJ as [NJ1 NJ2].
      destruct (X3 _ _ _ _ _ _ _ Tr) as [Y1 Y2]. destruct (le_lt_dec m x) as [Lx|Lx]; [apply IH2; [exact NJ2|lia|exact Vx]|].
      destruct (Nat.eq_dec x a) as [ ->|N1]; [now apply (flagged_next _ af)|]. apply IH; [lia|exact NJ1|unfold own2; lia|exact Vx].
  Qed.
End Flags.

(** * Writing *)
Section Emission.
  Variable g : graph.
  Variable r : rst.
  Variable V : nat -> Prop.
  Hypothesis Vc : forall b c, V b -> In (Some c) (children (b_end (g b))) -> b_state (g c) = false -> V c.
  Hypothesis U : forall b, b_end (g b) <> ENext None.
  Hypothesis HP : forall b, plain g b.
  Definition numbers (ffi : nat -> option nat) : Prop := forall b c, V b -> In (Some c) (children (b_end (g b))) -> b_state (g c) = true -> exists i, ffi c = Some i.
  (** Blocks following a visited block. *)
  Definition kid (c : nat) : Prop := exists b, V b /\ In (Some c) (children (b_end (g b))).
  Definition done (o : option (list vst * list var * list nat)) : Prop := exists c d q, o = Some (c, d, q) /\ Forall kid q.
  Definition emits (F b : nat) : Prop := forall f ffi entry stop deps, F <= f -> numbers ffi -> (b_state (g b) = true -> entry = true -> stop = None) ->
    done (emit g r ffi f entry stop b deps).

  Lemma kids_total b : V b -> (forall y, flow g y b -> V y -> exists F, emits F y) ->
    exists F, forall c, In (Some c) (children (b_end (g b))) -> b_state (g c) = false -> emits F c.
  Proof.
    intros Vb IH. assert (X : forall c, In (Some c) (children (b_end (g b))) -> b_state (g c) = false -> exists F, emits F c).
    { intros c Hc S. apply IH; [split; assumption|]. now apply (Vc b). }
    clear IH Vb. induction (children (b_end (g b))) as [|[c|] l IHl].
    - exists 0. intros c [].
    - destruct IHl as [F1 H1]; [intros c' Hc; apply X; now right|]. destruct (b_state (g c)) eqn:S.
      + exists F1. intros c' [[= <-]|Hc] Sc; [congruence|now apply H1].
      + destruct (X c ltac:(now left) S) as [F2 H2]. exists (max F1 F2). intros c' [[= <-]|Hc] Sc f ffi entry stop deps L; [apply H2; lia|apply (H1 c' Hc Sc); lia].
    - destruct IHl as [F1 H1]; [intros c' Hc; apply X; now right|]. exists F1. intros c [Hc|Hc]; [discriminate|now apply H1].
  Qed.

  Ltac fin_tac := do 3 eexists; split; [reflexivity|]; repeat (apply Forall_app; split); assumption || constructor.
  Lemma emit_total b : Acc (flow g) b -> V b -> exists F, emits F b.
  Proof.
    induction 1 as [b _ IH]. intros Vb. destruct (kids_total b Vb IH) as [F K]. exists (S (S F)). intros f ffi entry stop deps L HN HS.
    destruct f as [|f]; [lia|]. assert (L' : F <= f /\ 0 < f) by lia. clear L. cbn [emit].
    assert (E0 : entry && match stop with Some _ => true | None => false end && b_state (g b) = false).
    { destruct entry; [|reflexivity]. destruct (b_state (g b)); [|now rewrite andb_false_r]. rewrite (HS eq_refl eq_refl). reflexivity. }
    rewrite E0. destruct (write_ins (b_ins (g b)) deps) as [c1 d1].
    assert (GO : forall x d, In (Some x) (children (b_end (g b))) -> b_state (g x) = true -> done (goto_state ffi x d)).
    { intros x d Hx S. destruct (HN b x Vb Hx S) as [i E]. unfold goto_state. rewrite E. cbn. do 3 eexists. split; [reflexivity|]. constructor; [now exists b|constructor]. }
    assert (EM : forall x st d, In (Some x) (children (b_end (g b))) -> done (emit g r ffi f true (Some st) x d)).
    { intros x st d Hx. destruct (b_state (g x)) eqn:S.
      - destruct f as [|f']; [lia|]. cbn [emit]. rewrite S. cbn [andb]. now apply GO.
      - apply (K x Hx S); [lia|exact HN|congruence]. }
    assert (FO : forall x d, In (Some x) (children (b_end (g b))) -> done
      (if b_state (g x) then goto_state ffi x d else if match stop with Some t => Nat.eqb x t | None => false end then Some ([], d, []) else emit g r ffi f false stop x d)).
    { intros x d Hx. destruct (b_state (g x)) eqn:S; [now apply GO|]. destruct (match stop with Some t => Nat.eqb x t | None => false end); [fin_tac|].
      apply (K x Hx S); [lia|exact HN|congruence]. }
    assert (EA : forall x d, In (Some x) (children (b_end (g b))) -> b_state (g x) = false -> done (emit g r ffi f true stop x d)).
    { intros x d Hx S. apply (K x Hx S); [lia|exact HN|congruence]. }
    pose proof (HP b) as PL. unfold plain in PL.
    destruct (b_end (g b)) as [|[n|]|e ib fi it eb fe et af|e cs af|e it af|e w n|c sv cid go rt|c rets] eqn:E; try contradiction.
    - fin_tac.
    - destruct (FO n d1 ltac:(now left)) as [c [d [q [-> Q_q]]]]. cbn. fin_tac.
    - now apply U in E.
    - destruct (EM ib af d1 ltac:(now left)) as [ci [di [qi [-> Q_qi]]]]. cbn [obind].
      match goal with |- context [obind (if ?x then _ else _)] => assert (X : done (if x then obind (emit g r ffi f true stop af di) (fun '(c, d, q) => Some (ci ++ c, d, qi ++ q)) else Some (ci, di, qi))) end.
      { destruct (dead r et && negb (dead r it)); cbn [andb]; [|fin_tac]. destruct (b_state (g af)) eqn:S; cbn; [fin_tac|].
        destruct (EA af di) as [c [d [q [-> Q_q]]]]; [cbn; auto|exact S|]. cbn. fin_tac. }
      destruct X as [ci' [di' [qi' [-> Q_qi']]]]. cbn [obind].
      destruct (EM eb af d1 ltac:(cbn; auto)) as [ce [de [qe [-> Q_qe]]]]. cbn [obind].
      match goal with |- context [obind (if ?x then _ else _)] => assert (X : done (if x then obind (emit g r ffi f true stop af de) (fun '(c, d, q) => Some (ce ++ c, d, qe ++ q)) else Some (ce, de, qe))) end.
      { destruct (dead r it && negb (dead r et)); cbn [andb]; [|fin_tac]. destruct (b_state (g af)) eqn:S; cbn; [fin_tac|].
        destruct (EA af de) as [c [d [q [-> Q_q]]]]; [cbn; auto|exact S|]. cbn. fin_tac. }
      destruct X as [ce' [de' [qe' [-> Q_qe']]]]. cbn [obind].
      destruct (b_state (g af)) eqn:S; [fin_tac|]. destruct ((dead r et && negb (dead r it)) || (dead r it && negb (dead r et))); [fin_tac|].
      specialize (FO af (d1 ++ di' ++ de')). rewrite S in FO. destruct FO as [c [d [q [-> Q_q]]]]; [cbn; auto|]. cbn. fin_tac.
    - assert (A : exists bs d q, (fix all (cs0 : list (option Z * nat)) : option (list (option Z * list vst) * list var * list nat) :=
          match cs0 with
          | [] => Some ([], [], [])
          | (v, cb) :: cs' => obind (emit g r ffi f true (Some af) cb d1) (fun '(c, d, q) => obind (all cs') (fun '(bs, d', q') => Some ((v, c) :: bs, d ++ d', q ++ q')))
          end) cs = Some (bs, d, q) /\ Forall kid q).
      { assert (CI : forall v cb, In (v, cb) cs -> In (Some cb) (children (ESwitch e cs af))).
        { intros v cb H. cbn. apply in_or_app. left. apply in_map_iff. now exists (v, cb). }
        clear - EM CI. assert (EM' : forall v cb, In (v, cb) cs -> done (emit g r ffi f true (Some af) cb d1)) by (intros v cb H; apply EM; now apply (CI v)).
        clear EM CI. induction cs as [|[v cb] cs IHc]; [fin_tac|]. destruct (EM' v cb ltac:(now left)) as [c [d [q [-> Q_q]]]]. cbn [obind].
        destruct IHc as [bs [d' [q' [-> Q_q']]]]; [intros v' cb' H; apply (EM' v'); now right|]. cbn [obind]. fin_tac. }
      destruct A as [bs [d [q [-> Q_q]]]]. cbn [obind]. destruct (b_state (g af)) eqn:S; [fin_tac|].
      specialize (FO af (d1 ++ d)). rewrite S in FO. destruct FO as [c' [d' [q' [-> Q_q']]]]; [cbn; apply in_or_app; right; now left|]. cbn. fin_tac.
    - destruct (EM it af d1 ltac:(now left)) as [ci [di [qi [-> Q_qi]]]]. cbn [obind].
      destruct (b_state (g af)) eqn:S.
      + destruct (GO af d1) as [c [d [q [-> Q_q]]]]; [cbn; auto|exact S|]. cbn. fin_tac.
      + destruct (EA af d1) as [c [d [q [-> Q_q]]]]; [cbn; auto|exact S|]. cbn. fin_tac.
    - destruct PL as [P1 P2]. assert (Iw : In (Some w) (children (b_end (g b)))) by (rewrite E; now left). assert (In_ : In (Some n) (children (b_end (g b)))) by (rewrite E; cbn; auto).
      destruct (HN b w Vb Iw P1) as [iw ->]. cbn [obind]. destruct (HN b n Vb In_ P2) as [i_n ->]. cbn. do 3 eexists. split; [reflexivity|]. constructor; [now exists b|constructor; [now exists b|constructor]].
  Qed.
End Emission.

Lemma resolve_total lbl : forall fwd g, (forall n b, In (n, b) fwd -> assoc n lbl <> None) -> exists g', resolve lbl fwd g = Some g'.
Proof.
  induction fwd as [|[n b] fwd IH]; intros g H; cbn [resolve]; [now exists g|]. destruct (assoc n lbl) as [x|] eqn:A; [|exfalso; apply (H n b); [now left|exact A]].
  apply IH. intros m y Hm. apply (H m y). now right.
Qed.
Lemma resolve_bc lbl N : (forall n b, In (n, b) lbl -> b < N) -> forall fwd g g', resolve lbl fwd g = Some g' -> Bc g N -> Bc g' N.
Proof.
  intros HL. induction fwd as [|[n b] fwd IH]; intros g g' H HB; cbn [resolve] in H; [injection H as <-; exact HB|]. destruct (assoc n lbl) as [x|] eqn:A; [|discriminate].
  apply (IH _ _ H). intros y c L Hc. apply assoc_in in A. specialize (HL n x A). unfold set_state, set_end, gset in Hc. destruct (Nat.eqb_spec y x) as [ ->|Ny].
  - cbn in Hc. destruct (Nat.eqb_spec x b); [destruct Hc as [[= <-]|[]]; exact HL|exact (HB x c L Hc)].
  - destruct (Nat.eqb_spec y b) as [ ->|Nb]; [destruct Hc as [[= <-]|[]]; exact HL|exact (HB y c L Hc)].
Qed.

Section States.
  Variables (g : graph) (r : rst) (last : nat) (deps0 : list var) (N ff F1 : nat).
  Hypothesis HB : Bc g N.
  Hypothesis U : forall b, b_end (g b) <> ENext None.
  Hypothesis HP : forall b, plain g b.
  Hypothesis R : Ren ff g r.
  Hypothesis HV : forall b, In b (r_vis r) -> b < N.
  Hypothesis HF : forall b f, b < N -> F1 <= f -> exists y, fast_forward f g b = Some y.
  Hypothesis HA : forall b, b < N -> Acc (flow g) b.
  Definition Vis (b : nat) : Prop := In b (r_vis r).

  Lemma kid_ff c f : kid g Vis c -> b_state (g c) = true -> F1 <= f -> exists y, fast_forward f g c = Some y /\ Vis y /\ b_state (g y) = true.
  Proof.
    intros [b [Vb Hc]] S L. destruct (n_child _ _ _ R b (Some c) Vb Hc) as [c' [[= <-] [y [T Vy]]]]. unfold tgt in T. rewrite S in T.
    destruct (HF c f) as [z E]; [apply (HB b); [now apply HV|exact Hc]|exact L|].
    assert (z = y).
    { pose proof (fast_forward_fuel g f (max f ff) c z E ltac:(lia)) as X1. pose proof (fast_forward_fuel g ff (max f ff) c y T ltac:(lia)) as X2. congruence. }
    subst z. exists y. split; [exact E|]. split; [exact Vy|]. destruct (b_noskip (g c)) eqn:K.
    - unfold fast_forward in E. rewrite K in E. now injection E as <-.
    - now destruct (fast_forward_skips _ _ _ _ E S K) as [_ [X _]].
  Qed.
  Lemma numbers_ok f : F1 <= f -> numbers g Vis (ff_index f g r last).
  Proof.
    intros L b c Vb Hc S. destruct (kid_ff c f) as [y [E [Vy Sy]]]; [now exists b|exact S|exact L|]. unfold ff_index. rewrite E. cbn [obind].
    destruct (block_empty (g y) && Nat.eqb y last); [eauto|]. exact (n_state _ _ _ R y Vy Sy).
  Qed.
  Lemma vis_flow b c : Vis b -> In (Some c) (children (b_end (g b))) -> b_state (g c) = false -> Vis c.
  Proof. intros Vb Hc S. destruct (n_child _ _ _ R b (Some c) Vb Hc) as [c' [[= <-] [y [T Vy]]]]. unfold tgt in T. rewrite S in T. now injection T as <-. Qed.

  Lemma pushed_ok f : F1 <= f -> forall ps, Forall (kid g Vis) ps -> exists ps', somes (map (fast_forward f g) (filter (fun x => b_state (g x)) ps)) = Some ps' /\
    forall y, In y ps' -> Vis y /\ b_state (g y) = true.
  Proof.
    intros L. induction 1 as [|x ps Hx Hps [ps' [E IH]]]; [exists []; split; [reflexivity|intros y []]|]. cbn [filter]. destruct (b_state (g x)) eqn:S; [|now exists ps'].
    destruct (kid_ff x f Hx S L) as [y [E1 [Vy Sy]]]. exists (y :: ps'). cbn [map somes]. rewrite E1, E. split; [reflexivity|]. intros z [ <-|Hz]; [auto|now apply IH].
  Qed.

  Lemma write_total q pr : (forall b, In b q -> Vis b /\ b_state (g b) = true) -> exists f arms, write_states f g r last deps0 q pr = Some arms.
  Proof.
    enough (X : forall u l pr q, u = unv N pr -> l = length q -> (forall b, In b q -> Vis b /\ b_state (g b) = true) -> exists f arms, write_states f g r last deps0 q pr = Some arms)
      by (intros H; eapply X; eauto).
    clear pr q. induction u as [u IHu] using lt_wf_ind. induction l as [l IHl] using lt_wf_ind. intros pr q EU EL Hq. destruct q as [|b q]; [exists 0, []; reflexivity|].
    destruct (Hq b ltac:(now left)) as [Vb Sb]. destruct (n_state _ _ _ R b Vb Sb) as [id Ei].
    destruct (memb b pr) eqn:M.
    - destruct (IHl (length q) ltac:(cbn in EL; lia) pr q EU eq_refl) as [f [arms E]]; [intros x Hx; apply Hq; now right|].
      exists (S f), arms. cbn [write_states]. now rewrite Ei, M.
    - destruct (emit_total g r Vis vis_flow U HP b (HA b (HV b Vb)) Vb) as [F HE]. set (f0 := max F F1).
      destruct (HE f0 (ff_index f0 g r last) true None deps0) as [c [d [ps [E1 Q]]]]; [lia|apply numbers_ok; lia|reflexivity|].
      destruct (pushed_ok f0 ltac:(lia) ps Q) as [ps' [E2 Hps]].
      destruct (IHu (unv N (b :: pr))) with (l := length (q ++ ps')) (pr := b :: pr) (q := q ++ ps') as [f1 [arms E3]]; try reflexivity.
      { subst u. apply filter_lt with b.
        - intros x _ Hx. rewrite memb_cons in Hx. apply negb_true_iff in Hx. apply orb_false_iff in Hx. destruct Hx as [_ Hx]. now rewrite Hx.
        - apply in_seq. pose proof (HV b Vb). lia.
        - rewrite memb_cons, Nat.eqb_refl. reflexivity.
        - now rewrite M. }
      { intros x Hx. apply in_app_or in Hx. destruct Hx as [Hx|Hx]; [apply Hq; now right|now apply Hps]. }
      exists (S (max f0 f1)), ((id, c) :: arms). cbn [write_states]. rewrite Ei, M.
      assert (X : ext (emit g r (ff_index f0 g r last) f0 true None b deps0) (emit g r (ff_index (max f0 f1) g r last) (max f0 f1) true None b deps0)).
      { apply emit_fuel; [|lia]. intros x y H. apply ff_index_fuel with f0; [exact H|lia]. }
      rewrite (X _ E1). cbn [obind]. rewrite (somes_fuel g f0 (max f0 f1) ltac:(lia) _ _ E2). cbn [obind].
      rewrite (write_states_fuel g r last deps0 f1 (max f0 f1) _ _ ltac:(lia) _ E3). reflexivity.
  Qed.
End States.

(** * Whole programs *)
Record wf (p : list stmt) : Prop := {
  wf_brk : brkoks false p = true;
  wf_lbl : NoDup (labelss p);
  wf_tgt : incl (gotoss p) (labelss p);
  wf_jmp : nojumps (gotoss p) p = true;
  wf_held : helds (firms p) false p = true
}.
Lemma body_brk unit p : brkoks false (body unit p) = brkoks false p.
Proof. destruct unit; [|reflexivity]. cbn. now rewrite andb_true_r. Qed.
Lemma body_labels unit p : labelss (body unit p) = labelss p.
Proof. destruct unit; [|reflexivity]. cbn. now rewrite app_nil_r. Qed.
Lemma body_firms unit p : firms (body unit p) = firms p.
Proof. destruct unit; [|reflexivity]. cbn. now rewrite app_nil_r. Qed.
Lemma body_held F unit p : helds F false (body unit p) = helds F false p.
Proof. destruct unit; [|reflexivity]. cbn. now rewrite andb_true_r. Qed.
Lemma body_nojumps unit p : nojumps (gotoss p) p = true -> nojumps (gotoss (body unit p)) (body unit p) = true.
Proof.
  intros NJ. rewrite body_nojump, <- NJ. apply nojumps_ext. intros n. destruct (memb n (gotoss p)) eqn:M; [apply memb_In; apply body_gotos; now apply memb_In|].
  apply memb_notIn. rewrite body_gotos. now apply memb_notIn.
Qed.

Theorem compile_total unit deps0 p : wf p -> exists F m, forall fuel, F <= fuel -> compile fuel unit deps0 p = Some m.
Proof.
  intros [W1 W2 W3 W4 W5].
  (* gathering *)
  destruct (list_tot (body unit p)) with (brk := @None nat) (cur := 0) (s := gst0) as [f0 [c [s0 [GL TT]]]].
  { apply Forall_forall. intros x _. apply gather_total. }
  { cbn [may]. now rewrite body_brk. }
  { split; [intros b x L Hx; cbn in *; unfold set_state, gset in Hx; destruct (Nat.eqb b 0); destruct Hx|intros n b []]. }
  { cbn. lia. }
  { discriminate. }
  { now rewrite body_labels. }
  { reflexivity. }
  set (T := gotoss (body unit p)). pose proof (body_nojumps unit p W4) as NJ. fold T in NJ.
  destruct (gather_list_ok f0 T (body unit p) None 0 gst0 c s0 GL pre0 NJ (incl_refl _)) as [P TR].
  pose proof (p_inv _ _ _ _ _ _ _ P) as I0. set (N := g_next s0). assert (N0 : 0 < N) by (pose proof (t_next _ _ _ _ TT) as X; cbn in X; unfold N; lia).
  (* jumps *)
  destruct (resolve_total (g_lbl s0) (g_fwd s0) (g_blk s0)) as [g1 RS].
  { intros n b Hn A. apply (t_lbl _ _ _ _ TT n) in A. destruct A as [_ A]. apply A. rewrite body_labels. apply W3. apply (body_gotos unit).
    destruct (p_fwd _ _ _ _ _ _ _ P n b Hn) as [X|X]; [destruct X|exact X]. }
  assert (GB : gather_body f0 unit p = Some (upd_blk s0 g1)) by (unfold gather_body; rewrite body_gather, GL; cbn [obind]; now rewrite RS).
  destruct (resolve_ok s0 I0 (p_fnd _ _ _ _ _ _ _ P) (g_fwd s0) (g_blk s0) g1) as [F1 [R2 [R3 R4]]].
  { apply incl_refl. }
  { exact (p_fnd _ _ _ _ _ _ _ P). }
  { replace (upd_blk s0 (g_blk s0)) with s0 by (destruct s0; reflexivity). apply fut_refl. exact (i_lbl s0 I0). }
  { intros n from Hf. now apply (i_fwd s0 I0 n). }
  { exact RS. }
  assert (B1 : Bc g1 N) by (eapply resolve_bc; [exact (proj2 (t_bd _ _ _ _ TT))|exact RS|exact (proj1 (t_bd _ _ _ _ TT))]).
  assert (UN : forall b, b_end (g1 b) <> ENext None).
  { intros b E. destruct (in_dec Nat.eq_dec b (map snd (g_fwd s0))) as [X|X].
    - apply in_map_iff in X. destruct X as [[n b'] [E1 E2]]. cbn in E1. subst b'. exact (R2 n b E2 E).
    - rewrite R3 in E by exact X. destruct (p_unres _ _ _ _ _ _ _ P b E) as [n Hn]. apply X. apply in_map_iff. now exists (n, b). }
  assert (NF : forall b, b_end (g_blk s0 b) = ENone -> b_end (g1 b) = ENone).
  { intros b E. rewrite R3; [exact E|]. intros X. apply in_map_iff in X. destruct X as [[n b'] [E1 E2]]. cbn in E1. subst b'. destruct (i_fwd s0 I0 n b E2). congruence. }
  (* what the layout gives *)
  assert (LAY : forall g, (forall b, b_end (g b) = b_end (g1 b)) -> Fut noE s0 (upd_blk s0 g) -> (forall b, b < N -> fin g b) /\ (forall b, b < N -> Acc (flow g) b)).
  { intros g HE F. pose proof (TR noE (upd_blk s0 g) F ltac:(intros x [])) as TR2. cbn [g_blk upd_blk g_next] in TR2.
    assert (CE : b_end (g c) = ENone) by (rewrite HE; apply NF; exact (p_open _ _ _ _ _ _ _ P)).
    assert (LF : forall n x y, LbOf (upd_blk s0 g) n x -> LbOf (upd_blk s0 g) n y -> x = y) by (unfold LbOf; intros; congruence).
    split.
    - destruct (firm_ok g (LbOf (upd_blk s0 g)) LF) as [_ [FO _]].
      destruct (fin_ok g (LbOf (upd_blk s0 g)) (firms (body unit p))) as [_ [K _]]; [intros n x Hn Hx; exact (FO _ _ _ _ _ _ _ _ TR2 n x Hn Hx)|].
      destruct (K _ _ _ _ _ _ _ _ TR2 false) as [A1 A2]; [rewrite body_firms, body_held; exact W5|discriminate|discriminate|apply fin_end; intros x E; congruence|].
      intros b L. destruct (Nat.eq_dec b 0) as [ ->|Nb]; [exact A1|]. apply A2. cbn [gst0 g_next]. unfold N in L. lia.
    - destruct (acc_ok g (LbOf (upd_blk s0 g))) as [_ [K _]].
      destruct (K _ _ _ _ _ _ _ _ TR2) as [A1 A2]; [constructor; intros y [Hy _]; rewrite CE in Hy; destruct Hy|].
      intros b L. destruct (Nat.eq_dec b 0) as [ ->|Nb]; [exact A1|]. apply A2. cbn [gst0 g_next]. unfold N in L. lia. }
  assert (S0 : b_state (g1 0) = true).
  { apply (f_state _ _ _ F1); [exact N0|]. apply (f_state _ _ _ (p_fut _ _ _ _ _ _ _ P)); cbn; [lia|reflexivity]. }
  (* first numbering *)
  destruct (LAY g1 (fun _ => eq_refl) F1) as [FIN1 _]. destruct (fin_all g1 N UN FIN1) as [K1 HF1].
  destruct (renumber_total g1 N (max K1 N) B1 UN) as [r1 RN1]; [intros b L; apply HF1; lia|exact S0|exact N0|lia|].
  assert (REN1 : Ren (max K1 N) g1 r1) by (eapply loop_ren; [exact S0|exact RN1]).
  assert (HT : forall n x, LbOf (upd_blk s0 g1) n x -> b_state (g1 x) = true -> In n T).
  { intros n x HL S1. apply assoc_in in HL. destruct (R4 x S1) as [S2|[m [M1 M2]]].
    - destruct (le_lt_dec (g_next gst0) x) as [L|L].
      + exact (p_newl _ _ _ _ _ _ _ P n x HL L S2).
      + exfalso. pose proof (f_lbl _ _ _ (p_fut _ _ _ _ _ _ _ P) n x HL L) as X. destruct X.
    - assert (m = n) by exact (p_inj _ _ _ _ _ _ _ P m n x M2 HL). subst m. apply in_map_iff in M1. destruct M1 as [[a b] [E1 E2]]. cbn in E1. subst a.
      destruct (p_fwd _ _ _ _ _ _ _ P n b E2) as [X|X]; [destruct X|exact X]. }
  (* duplicated code *)
  destruct (prevent_total r1 (unreachable g1 r1) (fun b => b_end (g1 b))) with (bs := seq 0 N) (g := g1) (ch := false) as [g2 [ch PV]]; [|reflexivity|].
  { intros b e ib fi it eb fe et af Ub E. unfold unreachable in Ub. apply orb_false_iff in Ub. destruct Ub as [_ Db]. apply (n_dead _ _ _ REN1) in Db.
    destruct (flags_ok g1 (LbOf (upd_blk s0 g1)) T HT (fun b => In b (r_vis r1))) as [_ [K _]].
    { intros x y Vx Hy Sy. destruct (n_child _ _ _ REN1 x (Some y) Vx Hy) as [y' [[= <-] [z [Tz Vz]]]]. unfold tgt in Tz. rewrite Sy in Tz. now injection Tz as <-. }
    pose proof (TR noE (upd_blk s0 g1) F1 ltac:(intros x [])) as TR1. cbn [g_blk upd_blk] in TR1.
    assert (Lb : b < N) by (apply (ren_bound g1 N (max K1 N) B1 N0 r1 REN1); exact Db).
    assert (Nc : b <> c) by (intros ->; rewrite (NF c) in E; [discriminate|exact (p_open _ _ _ _ _ _ _ P)]).
    assert (FL : flagged g1 (fun b => In b (r_vis r1)) b).
    { apply (K _ _ _ _ _ _ _ _ TR1); [cbn; lia|exact NJ| |exact Db]. unfold own2. cbn [gst0 g_next]. unfold N in Lb. lia. }
    destruct (FL _ _ _ _ _ _ _ _ E) as [A1 A2]. split; intros X; apply (n_dead _ _ _ REN1); auto. }
  destruct (prevent_ok s0 r1 (unreachable g1 r1) I0 _ _ _ _ _ F1 PV) as [Q1 [Q2 [Q3 [Q4 [Q5 [Q6 [Q7 Q8]]]]]]].
  destruct (LAY g2 Q2 Q1) as [FIN2 ACC2].
  assert (B2 : Bc g2 N) by (intros b x L Hx; rewrite Q2 in Hx; now apply (B1 b)).
  assert (UN2 : forall b, b_end (g2 b) <> ENext None) by (intros b; rewrite Q2; apply UN).
  destruct (fin_all g2 N UN2 FIN2) as [K2 HF2].
  destruct (renumber_total g2 N (max K2 N) B2 UN2) as [r2 RN2]; [intros b L; apply HF2; lia|now apply Q5|exact N0|lia|].
  (* states *)
  set (K := max (max f0 (max K1 N)) (max K2 N)).
  assert (GS : exists r, generate_states K (upd_blk s0 g1) = Some (g2, r)).
  { unfold generate_states. change (g_blk (upd_blk s0 g1)) with g1. change (g_next (upd_blk s0 g1)) with N.
    rewrite (renumber_fuel g1 (max K1 N) K ltac:(lia) _ RN1). cbn [obind]. rewrite PV. cbn [obind]. destruct ch; [|eauto].
    rewrite (renumber_fuel g2 (max K2 N) K ltac:(lia) _ RN2). cbn [obind]. eauto. }
  destruct GS as [r GS]. pose proof (gather_body_fuel f0 K ltac:(lia) unit p _ GB) as GBK.
  destruct (states_ok K unit p (upd_blk s0 g1) g2 r GBK GS W4) as [c' [ic GD]].
  pose proof (o_ren _ _ _ _ _ _ _ GD) as REN.
  assert (HP : forall x, plain g2 x).
  { intros x. destruct (plain_ok g2 (LbOf (upd_blk s0 g1))) as [_ [PP _]]. destruct (Nat.eq_dec x c') as [ ->|Nx]; [unfold plain; now rewrite (o_end _ _ _ _ _ _ _ GD)|].
    destruct (le_lt_dec (g_next (upd_blk s0 g1)) x) as [L|L]; [unfold plain; now rewrite (o_out _ _ _ _ _ _ _ GD x L)|].
    apply (PP _ _ _ _ _ _ _ _ (o_tr _ _ _ _ _ _ _ GD)); [lia|]. unfold own2. lia. }
  destruct (write_total g2 r (g_last (upd_blk s0 g1)) deps0 N K K2 B2 UN2 HP REN) with (q := [0]) (pr := @nil nat) as [f3 [arms WS]].
  { apply (ren_bound g2 N K B2 N0 r REN). }
  { exact HF2. }
  { exact ACC2. }
  { intros b [ <-|[]]. split; [exact (n_zero _ _ _ REN)|now apply Q5]. }
  destruct (n_state _ _ _ REN 0 (n_zero _ _ _ REN) (Q5 0 S0)) as [e Ee].
  set (M := max K f3).
  exists M, {| f_arms := arms; f_entry := e; f_max := r_max r |}. intros fuel L. apply (compile_fuel unit deps0 p M fuel L). unfold compile.
  rewrite (gather_body_fuel K M ltac:(lia) unit p _ GBK). cbn [obind]. rewrite (generate_fuel (upd_blk s0 g1) K M ltac:(lia) _ GS). cbn [obind].
  rewrite (write_states_fuel g2 r (g_last (upd_blk s0 g1)) deps0 f3 M _ _ ltac:(lia) _ WS). cbn [obind]. rewrite Ee. reflexivity.
Qed.
