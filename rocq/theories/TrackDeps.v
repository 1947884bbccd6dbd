(** The dependencies kept while writing: what one assignment changes. *)
From Coq Require Import List Bool Arith Lia.
Import ListNotations.
From Verif Require Import DepModel DepProofs.

(** Dependencies of a set of rows: chains through written variables. *)
Inductive rch (d : deps) : var -> var -> Prop :=
| rch1 x r : present (dep d x r) = true -> rch d x r
| rchS x k r : present (dep d x k) = true -> written d k = true -> rch d k r -> rch d x r.
Lemma rch_trans d x k r : rch d x k -> written d k = true -> rch d k r -> rch d x r.
Proof. induction 1 as [x k P|x j k P Wj _ IH]; intros Wk R; [eapply rchS; eauto|]. eapply rchS; eauto. Qed.

Lemma present_or a b : present (for_ a b) = present a || present b.
Proof. unfold present, for_. cbn [fD fQ]. destruct (fD a), (fQ a), (fD b), (fQ b); reflexivity. Qed.

Lemma fold_row_junk d w r l : forall acc, present (fold_left (row_step d w r) l acc) = true ->
  present acc = true \/ exists k, present (dep d w k) = true /\ written d k = true /\ present (dep d k r) = true.
Proof.
  induction l as [|k l IH]; intros acc H; [now left|]. cbn [fold_left] in H. apply IH in H. destruct H as [H|H]; [|now right].
  unfold row_step in H. destruct (present (dep d w k) && written d k) eqn:E; [|now left]. rewrite present_or in H. apply orb_prop in H.
  destruct H as [H|H]; [now left|]. right. apply andb_prop in E. destruct E. eauto.
Qed.

Section Junk.
  Variable d0 : deps.
  Definition from (d : deps) : Prop := (forall x r, present (dep d x r) = true -> rch d0 x r) /\ (forall x, written d x = written d0 x).
  Lemma sweep_from n ks : forall d ch d' ch', inside n d -> from d -> sweep n ks d ch = (d', ch') -> from d'.
  Proof.
    induction ks as [|k ks IH]; intros d ch d' ch' I [F1 F2] H; cbn [sweep] in H; [injection H as <- _; now split|].
    eapply IH; [| |exact H]; [now apply set_row_inside|]. split; [|exact F2]. intros x r P. cbn [set_row dep] in P.
    destruct (Nat.eqb_spec x k) as [->|]; [|now apply F1]. rewrite close_row_eq in P by exact I. apply fold_row_junk in P.
    destruct P as [P|(j & P1 & P2 & P3)]; [now apply F1|]. rewrite F2 in P2. eapply rch_trans; [apply F1; exact P1|exact P2|apply F1; exact P3].
  Qed.
  Lemma closure_from n fuel : forall d d', inside n d -> from d -> closure n fuel d = Some d' -> from d'.
  Proof.
    induction fuel as [|fuel IH]; intros d d' I F H; [discriminate|]. cbn [closure] in H. destruct (sweep n (filter (written d) (seq 0 n)) d false) as [d1 ch] eqn:E.
    pose proof (sweep_from _ _ _ _ _ _ I F E) as F1. pose proof (sweep_inside _ _ _ _ _ _ I E) as I1. destruct ch; [eauto|now injection H as <-].
  Qed.
End Junk.

Definition G (n : nat) (d : deps) : Prop :=
  inside n d /\ (forall x r, present (dep d x r) = true -> written d x = true) /\ (forall x, written d x = true -> x < n) /\
  (forall x k r, present (dep d x k) = true -> written d k = true -> present (dep d k r) = true -> present (dep d x r) = true).

Lemma G_none n : G n no_deps.
Proof. repeat split; cbn; intros; try discriminate; reflexivity. Qed.

Lemma G_rch n d x r : G n d -> rch d x r -> present (dep d x r) = true.
Proof. intros (_ & _ & _ & C) R. induction R as [x r P|x k r P Wk _ IH]; [exact P|]. eapply C; eauto. Qed.

Lemma update_G n d rs w d1 : update n d {| i_read := rs; i_written := [w] |} = Some d1 -> G n d -> (forall r, In r rs -> r < n) -> w < n ->
  G n d1 /\ (forall x, written d1 x = written d x || Nat.eqb x w) /\
  (forall x r, x <> w -> present (dep d x r) = true -> present (dep d1 x r) = true) /\
  (forall r, In r rs -> present (dep d1 w r) = true) /\
  (In w rs -> written d w = true -> False) /\
  (forall x r, x <> w -> present (dep d1 x r) = true -> present (dep d x r) = true \/ (present (dep d1 x w) = true /\ (r = w \/ present (dep d1 w r) = true))).
Proof.
  intros H (I & O & RW & C) RR Lw. unfold update in H. cbn [i_read i_written] in H.
  set (d0 := {| dep := _; written := _ |}) in H.
  assert (MW : forall x, mem x [w] = Nat.eqb x w) by (intros x; unfold mem; cbn [existsb]; apply orb_false_r).
  assert (W0 : forall x, written d0 x = written d x || Nat.eqb x w) by (intros x; unfold d0; cbn [written]; now rewrite MW).
  assert (I0 : inside n d0).
  { intros x r Hr. unfold d0. cbn [dep]. rewrite MW. destruct (Nat.eqb x w); [|now apply I].
    destruct (mem r rs) eqn:E; [|reflexivity]. apply mem_In in E. apply RR in E. lia. }
  destruct (closure_ok n (fuel_for n) d0 I0) as (d1' & CL & [L1 L2] & I1 & CO). { unfold fuel_for. lia. }
  rewrite CL in H. destruct (existsb _ _) eqn:EX; [discriminate|]. injection H as ->.
  assert (FR : from d0 d1). { eapply closure_from; [exact I0| |exact CL]. split; [intros x r P; now apply rch1|reflexivity]. }
  destruct FR as [FR _].
  assert (RW0 : forall x, written d0 x = true -> x < n).
  { intros x Hx. rewrite W0 in Hx. apply orb_prop in Hx. destruct Hx as [Hx|Hx]; [now apply RW|]. apply Nat.eqb_eq in Hx. now subst. }
  assert (O0 : forall x r, present (dep d0 x r) = true -> written d0 x = true).
  { intros x r P. rewrite W0. unfold d0 in P. cbn [dep] in P. rewrite MW in P. destruct (Nat.eqb x w); [apply orb_true_r|]. rewrite orb_false_r. eapply O; eauto. }
  assert (O1 : forall x r, present (dep d1 x r) = true -> written d0 x = true).
  { intros x r P. apply FR in P. destruct P as [x r P|x k r P _ _]; eapply O0; eauto. }
  assert (IN : forall x r, present (dep d1 x r) = true -> r < n).
  { intros x r P. destruct (Nat.lt_ge_cases r n) as [L|L]; [exact L|]. rewrite (I1 x r L) in P. discriminate. }
  assert (C1 : forall x k r, present (dep d1 x k) = true -> written d1 k = true -> present (dep d1 k r) = true -> present (dep d1 x r) = true).
  { intros x k r P1 Wk P2. eapply fle_present; [|exact P2]. apply CO; auto; [|eapply IN; eauto].
    apply filter_In. pose proof (O1 _ _ P1) as Wx. split; [apply in_seq; pose proof (RW0 _ Wx); lia|exact Wx]. }
  assert (G1 : G n d1).
  { split; [exact I1|]. split; [intros x r P; rewrite <- L2; eapply O1; eauto|]. split; [intros x Hx; rewrite <- L2 in Hx; now apply RW0|exact C1]. }
  split; [exact G1|]. split; [intros x; rewrite <- L2; apply W0|].
  assert (E0 : forall x r, x <> w -> dep d0 x r = dep d x r).
  { intros x r N. unfold d0. cbn [dep]. rewrite MW. destruct (Nat.eqb_spec x w); [contradiction|reflexivity]. }
  split; [intros x r N P; eapply fle_present; [apply L1|]; now rewrite E0|].
  assert (RD : forall r, In r rs -> dep d0 w r = if written d r then {| fD := true; fQ := false |} else {| fD := false; fQ := true |}).
  { intros r Ir. unfold d0. cbn [dep]. rewrite MW, Nat.eqb_refl. apply mem_In in Ir. now rewrite Ir. }
  split; [intros r Ir; eapply fle_present; [apply L1|]; rewrite RD by exact Ir; now destruct (written d r)|].
  split.
  { intros Iw Ww. cbn [existsb] in EX. rewrite orb_false_r in EX. destruct (L1 w w) as [L _]. rewrite RD in L by exact Iw. rewrite Ww in L. cbn [fD] in L.
    rewrite L in EX by reflexivity. discriminate. }
  intros x r N P. apply FR in P.
  assert (UP : forall a b, rch d0 a b -> present (dep d1 a b) = true).
  { intros a b R. induction R as [a b Q|a k b Q Wk _ IH].
    - eapply fle_present; [apply L1|exact Q].
    - eapply C1; [eapply fle_present; [apply L1|exact Q]|rewrite <- L2; exact Wk|exact IH]. }
  assert (SP : forall a b, rch d0 a b -> a <> w -> present (dep d a b) = true \/ (rch d0 a w /\ (b = w \/ rch d0 w b))).
  { clear P. intros a b R. induction R as [a b Q|a k b Q Wk R IH]; intros Na.
    - left. now rewrite <- E0.
    - destruct (Nat.eq_dec k w) as [->|Nk]; [right; split; [now apply rch1|now right]|].
      destruct (IH Nk) as [J|[J1 J2]].
      + left. rewrite E0 in Q by exact Na. eapply C; eauto.
      + right. split; [eapply rchS; eauto|exact J2]. }
  destruct (SP _ _ P N) as [J|[J1 J2]]; [now left|]. right. split; [now apply UP|]. destruct J2; [now left|right; now apply UP].
Qed.
