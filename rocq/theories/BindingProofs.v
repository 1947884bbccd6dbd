From Coq Require Import ZArith List Bool Lia ZifyBool.
From Verif Require Import BindingModel.
Import ListNotations.
Local Open Scope Z_scope.

Definition covers (r : bit_binding) (bit : Z) : Prop := bb_first r <= bit < bb_first r + bb_width r.

Lemma which_some : forall bs bit w,
  which_binding bs bit (Some w) = Some (Some w) /\ (forall r, In r bs -> ~ covers r bit)
  \/ which_binding bs bit (Some w) = None /\ exists r, In r bs /\ covers r bit.
Proof.
  induction bs as [|r bs IH]; intros bit w; cbn [which_binding].
  - left. split; [reflexivity|]. intros r [].
  - destruct ((bit >=? bb_first r) && (bit <=? bb_first r + bb_width r - 1)) eqn:E.
    + right. split; [reflexivity|]. exists r. split; [left; reflexivity|]. unfold covers. lia.
    + destruct (IH bit w) as [[A B]|[A B]].
      * left. split; [assumption|]. intros r' [<-|Hin]; [unfold covers; lia|auto].
      * right. split; [assumption|]. destruct B as (r' & Hin & Hc). exists r'. split; [right|]; assumption.
Qed.

(** Case analysis of the inner loop. *)
Lemma which_none_spec : forall bs bit,
  (which_binding bs bit None = Some None /\ forall r, In r bs -> ~ covers r bit)
  \/ (exists l1 r l2, bs = l1 ++ r :: l2 /\ covers r bit /\ (forall r', In r' (l1 ++ l2) -> ~ covers r' bit)
       /\ which_binding bs bit None = Some (Some (bb_wire r, bit - bb_first r)))
  \/ (which_binding bs bit None = None /\
       exists l1 r l2 r' l3, bs = l1 ++ r :: l2 ++ r' :: l3 /\ covers r bit /\ covers r' bit).
Proof.
  induction bs as [|r bs IH]; intros bit; cbn [which_binding].
  - left. split; [reflexivity|]. intros r [].
  - destruct ((bit >=? bb_first r) && (bit <=? bb_first r + bb_width r - 1)) eqn:E.
    + right. destruct (which_some bs bit (bb_wire r, bit - bb_first r)) as [[A B]|[A B]].
      * left. exists [], r, bs. cbn. repeat split; auto; try (unfold covers; lia).
      * right. split; [assumption|]. destruct B as (r' & Hin & Hc). apply in_split in Hin.
        destruct Hin as (l2 & l3 & ->). exists [], r, l2, r', l3. cbn. repeat split; auto; unfold covers in *; lia.
    + destruct (IH bit) as [[A B]|[B|B]].
      * left. split; [assumption|]. intros r' [<-|Hin]; [unfold covers; lia|auto].
      * right; left. destruct B as (l1 & r' & l2 & -> & Hc & Hn & Hw). exists (r :: l1), r', l2.
        repeat split; auto; try (unfold covers in *; lia). intros x [<-|Hin]; [unfold covers; lia|auto].
      * right; right. destruct B as (Hn & l1 & r1 & l2 & r2 & l3 & -> & H1 & H2). split; [assumption|].
        exists (r :: l1), r1, l2, r2, l3. auto.
Qed.

Definition elem_of (w : option (nat * Z)) : celem := match w with None => CZero | Some (x, k) => CBit x k end.

Lemma rewrite_loop_acc : forall n bit bs acc l,
  rewrite_loop n bit bs acc = Some l ->
  exists l0, l = l0 ++ acc /\ length l0 = n /\
    forall i, (i < n)%nat -> exists w, which_binding bs (bit + Z.of_nat i) None = Some w /\
       nth_error (rev l0) i = Some (elem_of w).
Proof.
  induction n as [|n IH]; intros bit bs acc l H; cbn [rewrite_loop] in H.
  - inversion H; subst. exists []. split; [reflexivity|]. split; [reflexivity|]. intros; lia.
  - destruct (which_binding bs bit None) as [w|] eqn:E; [|discriminate].
    apply IH in H. destruct H as (l0 & -> & Hlen & Hi).
    exists (l0 ++ [elem_of w]). split; [rewrite <- app_assoc; reflexivity|].
    split; [rewrite app_length; cbn; lia|].
    intros [|i] Hlt; rewrite rev_app_distr; cbn.
    + exists w. replace (bit + 0) with bit by lia. auto.
    + destruct (Hi i ltac:(lia)) as (w' & A & B). exists w'. split; [|assumption].
      replace (bit + Z.pos (Pos.of_succ_nat i)) with (bit + 1 + Z.of_nat i) by lia. assumption.
Qed.

Lemma rewrite_loop_none : forall n bit bs acc,
  rewrite_loop n bit bs acc = None <-> exists i, (i < n)%nat /\ which_binding bs (bit + Z.of_nat i) None = None.
Proof.
  induction n as [|n IH]; intros bit bs acc; cbn [rewrite_loop].
  - split; [discriminate|]. intros (i & H & _). lia.
  - destruct (which_binding bs bit None) as [w|] eqn:E.
    + rewrite IH. split; intros (i & H & Hw).
      * exists (S i). split; [lia|]. replace (bit + Z.of_nat (S i)) with (bit + 1 + Z.of_nat i) by lia. assumption.
      * destruct i as [|i]; [replace (bit + Z.of_nat 0) with bit in Hw by lia; congruence|].
        exists i. split; [lia|]. replace (bit + 1 + Z.of_nat i) with (bit + Z.of_nat (S i)) by lia. assumption.
    + split; [|reflexivity]. intros _. exists O. split; [lia|]. replace (bit + Z.of_nat 0) with bit by lia. assumption.
Qed.

Lemma celems_val_app : forall rho l e,
  celems_val rho (l ++ [e]) = 2 * celems_val rho l + Z.b2z (celem_val rho e).
Proof. intros. unfold celems_val. rewrite fold_left_app. reflexivity. Qed.

Lemma celems_bit : forall rho l i, 0 <= Z.of_nat i ->
  Z.testbit (celems_val rho l) (Z.of_nat i) =
  match nth_error (rev l) i with Some e => celem_val rho e | None => false end.
Proof.
  intros rho l. pattern l. apply rev_ind; clear l.
  - intros i _. destruct i; cbn [rev nth_error]; unfold celems_val; cbn [fold_left]; apply Z.testbit_0_l.
  - intros e l IH i _. rewrite celems_val_app, rev_app_distr. cbn [rev app].
    destruct i as [|i].
    + cbn [nth_error Z.of_nat]. rewrite Z.add_comm. apply Z.add_b2z_double_bit0.
    + cbn [nth_error]. rewrite <- IH by lia.
      rewrite Z.add_comm, Nat2Z.inj_succ.
      rewrite <- Z.div2_bits by lia.
      f_equal. rewrite Z.mul_comm, Z.div_add by lia. destruct (celem_val rho e); reflexivity.
Qed.

Lemma rewriteBinding_ok : forall ibw bs l rho,
  rewriteBinding ibw bs = Some l ->
  length l = ibw /\
  forall i, (i < ibw)%nat ->
    (forall r, In r bs -> covers r (Z.of_nat i) ->
       Z.testbit (celems_val rho l) (Z.of_nat i) = Z.testbit (rho (bb_wire r)) (Z.of_nat i - bb_first r)) /\
    ((forall r, In r bs -> ~ covers r (Z.of_nat i)) -> Z.testbit (celems_val rho l) (Z.of_nat i) = false).
Proof.
  intros ibw bs l rho H. apply rewrite_loop_acc in H. destruct H as (l0 & -> & Hlen & Hi).
  rewrite app_nil_r. split; [assumption|]. intros i Hlt.
  destruct (Hi i Hlt) as (w & Hw & Hn). replace (0 + Z.of_nat i) with (Z.of_nat i) in Hw by lia.
  rewrite celems_bit by lia. rewrite Hn.
  destruct (which_none_spec bs (Z.of_nat i)) as [[A B]|[B|[A _]]].
  - rewrite A in Hw. inversion Hw; subst. split; [|reflexivity]. intros r Hin Hc. exfalso. eapply B; eauto.
  - destruct B as (l1 & r & l2 & -> & Hc & Hno & Hw2). rewrite Hw2 in Hw. inversion Hw; subst.
    split; [|intros Hn'; exfalso; apply (Hn' r); [apply in_or_app; right; left; reflexivity|assumption]].
    intros r' Hin Hc'. apply in_app_or in Hin. destruct Hin as [Hin|[->|Hin]].
    + exfalso. apply (Hno r'); [apply in_or_app; auto|assumption].
    + reflexivity.
    + exfalso. apply (Hno r'); [apply in_or_app; auto|assumption].
  - congruence.
Qed.

Lemma rewriteBinding_rejects : forall ibw bs,
  rewriteBinding ibw bs = None <->
  exists i l1 r l2 r' l3, (i < ibw)%nat /\ bs = l1 ++ r :: l2 ++ r' :: l3 /\
    covers r (Z.of_nat i) /\ covers r' (Z.of_nat i).
Proof.
  intros ibw bs. unfold rewriteBinding. rewrite rewrite_loop_none. split.
  - intros (i & Hlt & Hw). replace (0 + Z.of_nat i) with (Z.of_nat i) in Hw by lia.
    destruct (which_none_spec bs (Z.of_nat i)) as [[A _]|[B|[_ B]]]; [congruence| |].
    + destruct B as (? & ? & ? & ? & ? & ? & ?). congruence.
    + destruct B as (l1 & r & l2 & r' & l3 & -> & H1 & H2). exists i, l1, r, l2, r', l3. auto.
  - intros (i & l1 & r & l2 & r' & l3 & Hlt & -> & H1 & H2). exists i. split; [assumption|].
    replace (0 + Z.of_nat i) with (Z.of_nat i) by lia.
    destruct (which_none_spec (l1 ++ r :: l2 ++ r' :: l3) (Z.of_nat i)) as [[A B]|[B|[B _]]]; [| |assumption].
    + exfalso. apply (B r); [apply in_or_app; right; left; reflexivity|assumption].
    + exfalso. destruct B as (a & x & b & E & Hx & Hno & _).
      (* at least two elements of the list cover the bit *)
      assert (C : forall l, (forall y, In y l -> ~ covers y (Z.of_nat i)) ->
                filter (fun y => (bb_first y <=? Z.of_nat i) && (Z.of_nat i <? bb_first y + bb_width y)) l = []).
      { induction l as [|y l IHl]; intros Hl; [reflexivity|]. cbn.
        destruct ((bb_first y <=? Z.of_nat i) && (Z.of_nat i <? bb_first y + bb_width y)) eqn:E2.
        - exfalso. apply (Hl y); [left; reflexivity|]. unfold covers. lia.
        - apply IHl. intros z Hz. apply Hl. right; assumption. }
      apply (f_equal (filter (fun y => (bb_first y <=? Z.of_nat i) && (Z.of_nat i <? bb_first y + bb_width y)))) in E.
      apply (f_equal (@length _)) in E. rewrite !filter_app in E. cbn [filter] in E.
      rewrite filter_app in E. cbn [filter] in E.
      rewrite (C a), (C b) in E by (intros y Hy; apply Hno; apply in_or_app; auto).
      unfold covers in *.
      replace ((bb_first r <=? Z.of_nat i) && (Z.of_nat i <? bb_first r + bb_width r)) with true in E by lia.
      replace ((bb_first r' <=? Z.of_nat i) && (Z.of_nat i <? bb_first r' + bb_width r')) with true in E by lia.
      rewrite !app_length in E. cbn in E. rewrite app_length in E. cbn in E.
      destruct ((bb_first x <=? Z.of_nat i) && (Z.of_nat i <? bb_first x + bb_width x)); cbn in E; lia.
Qed.

(** A whole binding in second position is rejected. *)
Lemma record_whole_after : forall l w st st',
  record_outputs st l = Some st' -> st <> BNone -> forall l', record_outputs st (l ++ (w, None) :: l') = None.
Proof.
  induction l as [|[w0 r0] l IH]; intros w st st' H Hn l'; cbn in *.
  - destruct st; [congruence| | |]; reflexivity.
  - destruct (record_output st w0 r0) as [st1|] eqn:E; [|discriminate].
    eapply IH; eauto. intros ->. destruct r0 as [[f n]|]; cbn in E; [|destruct st; congruence].
    inversion E. destruct st; congruence.
Qed.

Lemma record_parts : forall l,
  (forall w, ~ In (w, None) l) -> l <> [] ->
  record_outputs BNone l = Some (BParts (map (fun p => match snd p with Some (f, n) => mkBB (fst p) f n | None => mkBB (fst p) 0 0 end) l)).
Proof.
  assert (G : forall l acc, (forall w, ~ In (w, None) l) ->
     record_outputs (BParts acc) l = Some (BParts (acc ++ map (fun p => match snd p with Some (f, n) => mkBB (fst p) f n | None => mkBB (fst p) 0 0 end) l))).
  { induction l as [|[w r] l IH]; intros acc H; cbn [record_outputs].
    - rewrite app_nil_r. reflexivity.
    - destruct r as [[f n]|]; [|exfalso; apply (H w); left; reflexivity].
      cbn [record_output]. rewrite IH by (intros w' Hw'; apply (H w'); right; assumption).
      cbn [map]. rewrite <- app_assoc. reflexivity. }
  intros [|[w r] l] H Hne; [congruence|]. cbn [record_outputs].
  destruct r as [[f n]|]; [|exfalso; apply (H w); left; reflexivity].
  cbn [record_output]. rewrite G by (intros w' Hw'; apply (H w'); right; assumption). reflexivity.
Qed.

(** *** Inouts *)

Definition disjoint (a b : io_binding) : Prop :=
  io_first a + io_width a <= io_first b \/ io_first b + io_width b <= io_first a.

Lemma overlap_loop_accepts : forall m prev e,
  prev + 1 <= e ->
  (forall b, In b m -> 0 < io_width b) ->
  (forall b, In b m -> io_left b = false -> e <= io_first b) ->
  (forall l1 a l2 b l3, m = l1 ++ a :: l2 ++ b :: l3 -> io_left a = false -> io_left b = false ->
      io_first a + io_width a <= io_first b) ->
  overlap_loop m prev = true.
Proof.
  induction m as [|b m IH]; intros prev e Hp Hw He Hd; cbn; [reflexivity|].
  destruct (io_left b) eqn:El.
  - apply (IH prev e); auto.
    + intros c Hc; apply Hw; right; assumption.
    + intros c Hc; apply He; right; assumption.
    + intros l1 a l2 c l3 -> Ha Hc. apply (Hd (b :: l1) a l2 c l3 eq_refl Ha Hc).
  - assert (Hb := He b (or_introl eq_refl) El). assert (Hwb := Hw b (or_introl eq_refl)).
    replace (io_first b =? prev) with false by lia.
    apply (IH (prev + io_width b) (io_first b + io_width b)).
    + lia.
    + intros c Hc; apply Hw; right; assumption.
    + intros c Hc Hl. apply in_split in Hc. destruct Hc as (l1 & l2 & ->).
      apply (Hd [] b l1 c l2 eq_refl El Hl).
    + intros l1 a l2 c l3 -> Ha Hc. apply (Hd (b :: l1) a l2 c l3 eq_refl Ha Hc).
Qed.

Lemma map_insert_in : forall b m x, In x (map_insert b m) -> x = b \/ In x m.
Proof.
  induction m as [|c m IH]; intros x H; cbn in H; [intuition congruence|].
  destruct (range_lt _ _); [cbn in *; intuition congruence|]. destruct (range_eq _ _); [auto|].
  cbn in *. destruct H as [->|H]; [auto|]. apply IH in H. tauto.
Qed.

Lemma bound_map_in : forall bs x, In x (bound_map bs) -> In x bs.
Proof.
  intros bs. unfold bound_map.
  enough (H : forall m x, In x (fold_left (fun m b => map_insert b m) bs m) -> In x bs \/ In x m).
  { intros x Hx. apply H in Hx. cbn in Hx. tauto. }
  induction bs as [|b bs IH]; intros m x H; cbn in *; [tauto|].
  apply IH in H. destruct H as [H|H]; [tauto|]. apply map_insert_in in H. intuition congruence.
Qed.

Definition lt_prop (a b : io_binding) : Prop :=
  io_first a < io_first b \/ (io_first a = io_first b /\ io_width a < io_width b).

Inductive sorted : list io_binding -> Prop :=
| sorted_nil : sorted []
| sorted_cons : forall a l, (forall b, In b l -> lt_prop a b) -> sorted l -> sorted (a :: l).

Lemma map_insert_sorted : forall b m, sorted m -> sorted (map_insert b m).
Proof.
  induction m as [|c m IH]; intros H; cbn.
  - constructor; [intros ? []|constructor].
  - inversion H as [|? ? Hlt Hs]; subst. destruct (range_lt (io_range b) (io_range c)) eqn:E1.
    + constructor; [|assumption]. unfold range_lt, io_range in E1. cbn in E1.
      intros d [<-|Hd]; [unfold lt_prop; lia|]. apply Hlt in Hd. unfold lt_prop in *. lia.
    + destruct (range_eq (io_range b) (io_range c)) eqn:E2; [assumption|].
      constructor; [|apply IH; assumption].
      unfold range_lt, range_eq, io_range in E1, E2. cbn in E1, E2.
      intros d Hd. apply map_insert_in in Hd. destruct Hd as [->|Hd]; [unfold lt_prop; lia|apply Hlt; assumption].
Qed.

Lemma bound_map_sorted : forall bs, sorted (bound_map bs).
Proof.
  intros bs. unfold bound_map. enough (H : forall m, sorted m -> sorted (fold_left (fun m b => map_insert b m) bs m)).
  { apply H. constructor. }
  induction bs as [|b bs IH]; intros m H; cbn; [assumption|]. apply IH. apply map_insert_sorted; assumption.
Qed.

Lemma sorted_app_lt : forall l1 a l2 b l3, sorted (l1 ++ a :: l2 ++ b :: l3) -> lt_prop a b.
Proof.
  induction l1 as [|c l1 IH]; intros a l2 b l3 H; cbn in H; inversion H as [|? ? Hlt Hs]; subst.
  - apply Hlt. apply in_or_app. right; left; reflexivity.
  - eapply IH; eauto.
Qed.

Lemma inout_disjoint_accepted : forall bs,
  (forall b, In b bs -> 0 <= io_first b /\ 0 < io_width b) ->
  (forall a b, In a bs -> In b bs -> io_left a = false -> io_left b = false ->
     io_range a <> io_range b -> disjoint a b) ->
  inout_ranges_ok bs = true.
Proof.
  intros bs Hw Hd. unfold inout_ranges_ok. destruct (Nat.ltb _ _); [reflexivity|].
  assert (Hin := bound_map_in bs). assert (Hs := bound_map_sorted bs).
  apply (overlap_loop_accepts _ _ 0); [lia| | |].
  - intros b Hb. apply Hin in Hb. apply Hw in Hb. lia.
  - intros b Hb _. apply Hin in Hb. apply Hw in Hb. lia.
  - intros l1 a l2 b l3 E Ha Hb. rewrite E in *. assert (Hlt := sorted_app_lt _ _ _ _ _ Hs).
    assert (Hia : In a bs). { apply Hin. apply in_or_app; right; left; reflexivity. }
    assert (Hib : In b bs). { apply Hin. apply in_or_app; right; right. apply in_or_app; right; left; reflexivity. }
    assert (Hne : io_range a <> io_range b). { unfold io_range, lt_prop in *. intros E2. inversion E2. lia. }
    destruct (Hd a b Hia Hib Ha Hb Hne) as [|Hc]; [assumption|].
    apply Hw in Hia. apply Hw in Hib. unfold lt_prop in Hlt. lia.
Qed.

(** A whole binding (range -1,-1) that is not an input, together with any other
    recorded range, is rejected. *)
Lemma bound_map_keeps : forall bs b, In b bs -> exists c, In c (bound_map bs) /\ io_range c = io_range b.
Proof.
  intros bs. unfold bound_map.
  assert (K : forall b m, exists c, In c (map_insert b m) /\ io_range c = io_range b).
  { induction m as [|c m (d & Hd & Ed)]; cbn; [exists b; split; [left|]; reflexivity|].
    destruct (range_lt _ _); [exists b; split; [left|]; reflexivity|].
    destruct (range_eq (io_range b) (io_range c)) eqn:E.
    - exists c. split; [left; reflexivity|]. unfold range_eq, io_range in *. cbn in *. f_equal; lia.
    - exists d. split; [right; assumption|assumption]. }
  assert (P : forall b m c, In c m -> In c (map_insert b m)).
  { induction m as [|d m IH]; intros c Hc; [destruct Hc|]. cbn.
    destruct (range_lt _ _); [right; assumption|]. destruct (range_eq _ _); [assumption|].
    destruct Hc as [->|Hc]; [left; reflexivity|right; apply IH; assumption]. }
  assert (Q : forall bs m c, In c m -> In c (fold_left (fun m b => map_insert b m) bs m)).
  { induction bs0 as [|b bs0 IH]; intros m c Hc; cbn; [assumption|]. apply IH. apply P. assumption. }
  enough (H : forall m b, In b bs -> exists c, In c (fold_left (fun m b => map_insert b m) bs m) /\ io_range c = io_range b).
  { apply H. }
  induction bs as [|a bs IH]; intros m b Hb; [destruct Hb|]. cbn. destruct Hb as [->|Hb]; [|apply IH; assumption].
  destruct (K b m) as (c & Hc & Ec). exists c. split; [apply Q; assumption|assumption].
Qed.

Lemma inout_whole_rejected : forall bs a b,
  In a bs -> In b bs -> io_range a = (-1, -1) -> io_left a = false ->
  (forall c, In c bs -> io_range c = (-1, -1) -> io_left c = false) ->
  (forall c, In c bs -> io_range c = (-1, -1) \/ 0 <= io_first c) ->
  io_range b <> (-1, -1) ->
  inout_ranges_ok bs = false.
Proof.
  intros bs a b Ha Hb Ea La Hall Hpos Hne. unfold inout_ranges_ok.
  destruct (bound_map_keeps bs a Ha) as (a' & Ha' & Ea').
  destruct (bound_map_keeps bs b Hb) as (b' & Hb' & Eb').
  assert (Hs := bound_map_sorted bs). assert (Hin := bound_map_in bs).
  destruct (bound_map bs) as [|c m] eqn:E; [destruct Ha'|].
  assert (Ec : io_range c = (-1, -1)).
  { destruct Ha' as [->|Ha']; [congruence|]. inversion Hs as [|? ? Hlt _]; subst.
    apply Hlt in Ha'. destruct (Hpos c (Hin c (or_introl eq_refl))) as [|Hc]; [assumption|].
    rewrite Ea in Ea'. unfold io_range in Ea'. inversion Ea' as [[E1 E2]]. unfold lt_prop in Ha'. lia. }
  destruct m as [|d m].
  - exfalso. destruct Hb' as [<-|[]]. congruence.
  - cbn [length Nat.ltb Nat.leb overlap_loop].
    rewrite (Hall c (Hin c (or_introl eq_refl)) Ec).
    unfold io_range in Ec. replace (io_first c) with (-1) by congruence. reflexivity.
Qed.
