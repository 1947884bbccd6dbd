From Coq Require Import String List Bool ZArith Lia.
From Verif Require Import PinModel.
Import ListNotations.
Local Open Scope string_scope.
Local Open Scope list_scope.

Definition flat (l : list pinref) := filter (fun r => negb (String.eqb (fst r) "")) l.

Lemma is_used_In : forall u p, is_used u p = true <-> In p (map fst u).
Proof.
  intros u p. unfold is_used. rewrite existsb_exists. split.
  - intros ([q t] & Hin & E). apply String.eqb_eq in E. cbn in E. subst. apply (in_map fst) in Hin. exact Hin.
  - intros H. apply in_map_iff in H. destruct H as ([q t] & E & Hin). cbn in E. subst.
    exists (p, t). split; [assumption|apply String.eqb_refl].
Qed.

Lemma insert_used_In : forall u p t q, In q (map fst (insert_used u p t)) <-> In q (map fst u) \/ q = p.
Proof.
  intros u p t q. unfold insert_used. destruct (is_used u p) eqn:E.
  - apply is_used_In in E. split; [tauto|]. intros [H| ->]; assumption.
  - rewrite map_app, in_app_iff. cbn. intuition.
Qed.

(** Pins seen so far stay used; a whole pin is fresh when reached. *)
Lemma add_pins_spec : forall l u t u', add_pins u t l = Some u' ->
  (forall q, In q (map fst u') <-> In q (map fst u) \/ In q (map fst (flat l))) /\
  (forall l1 p l2, flat l = l1 ++ (p, (-1)%Z) :: l2 -> ~ In p (map fst u) /\ ~ In p (map fst l1)).
Proof.
  induction l as [|[p bit] l IH]; intros u t u' H; cbn in H.
  - inversion H; subst. split; [cbn; tauto|]. intros [|? l1] p' l2 E; discriminate.
  - unfold flat; cbn. destruct (String.eqb p "") eqn:Ep; cbn.
    + apply IH in H. exact H.
    + destruct ((bit =? -1)%Z && is_used u p) eqn:Eb; [discriminate|]. apply IH in H. destruct H as [H1 H2]. split.
      * intros q. rewrite H1, insert_used_In. fold (flat l). intuition.
      * intros [|r l1] q l2 E; cbn in E; inversion E; subst.
        -- cbn in Eb. split; [|tauto]. intros Hin. apply is_used_In in Hin. congruence.
        -- destruct (H2 l1 q l2) as [Ha Hb]; [assumption|]. rewrite insert_used_In in Ha. cbn. split; [tauto|].
           intros [<- |Hin]; [apply Ha; right; reflexivity|tauto].
Qed.

Lemma connections_cons : forall fw p t ps l, pinsUsedByIOPort fw p = Some l ->
  connections fw ((p, t) :: ps) = (map (fun r => (p, t, r)) (flat l) ++ connections fw ps)%list.
Proof. intros fw p t ps l E. unfold connections. cbn. rewrite E. reflexivity. Qed.

Definition cpin (c : string * ptype * pinref) : string := fst (snd c).

Lemma add_port_pins : forall fw p t u u', addTopModulePort fw p t u = Some u' ->
  exists l, pinsUsedByIOPort fw p = Some l /\ add_pins u t l = Some u'.
Proof.
  unfold addTopModulePort. intros fw p t u u' H. destruct (pinsUsedByIOPort fw p) as [[|x l]|] eqn:E; try discriminate.
  exists (x :: l). split; [reflexivity|exact H].
Qed.

Lemma cpin_map : forall (p : string) (t : ptype) l, map cpin (map (fun r => (p, t, r)) l) = map fst l.
Proof. intros. rewrite map_map. reflexivity. Qed.

Lemma add_ports_spec : forall fw ps u u', add_ports fw ps u = Some u' ->
  (forall q, In q (map fst u') <-> In q (map fst u) \/ In q (map cpin (connections fw ps))) /\
  (forall c1 pt p c2, connections fw ps = c1 ++ (pt, (p, (-1)%Z)) :: c2 ->
     ~ In p (map fst u) /\ ~ In p (map cpin c1)).
Proof.
  induction ps as [|[p t] ps IH]; intros u u' H.
  - cbn in H. inversion H; subst. split; [cbn; tauto|]. intros [|? c1] pt p' c2 E; discriminate.
  - cbn in H. destruct (addTopModulePort fw p t u) as [u1|] eqn:E; [|discriminate].
    apply add_port_pins in E. destruct E as (l & El & Ea).
    apply add_pins_spec in Ea. destruct Ea as [A1 A2].
    apply IH in H. destruct H as [B1 B2].
    rewrite (connections_cons _ _ _ _ _ El). split.
    + intros q. rewrite B1, A1, map_app, in_app_iff, cpin_map. tauto.
    + intros c1 pt q c2 Eq.
      assert (Hsplit : (exists l1 l2, flat l = l1 ++ (q, (-1)%Z) :: l2 /\ c1 = map (fun r => (p, t, r)) l1)%list
                       \/ (exists c1', c1 = map (fun r => (p, t, r)) (flat l) ++ c1' /\
                           connections fw ps = c1' ++ (pt, (q, (-1)%Z)) :: c2)%list).
      { clear - Eq. revert c1 Eq. induction (flat l) as [|r fl IHf]; intros c1 Eq; cbn in Eq.
        - right. exists c1. split; [reflexivity|exact Eq].
        - destruct c1 as [|c c1]; cbn in Eq; inversion Eq; subst.
          + left. exists [], fl. split; reflexivity.
          + destruct (IHf c1 H1) as [(l1 & l2 & Ef & ->)|(c1' & -> & Ec)].
            * left. exists (r :: l1), l2. split; [cbn; rewrite Ef; reflexivity|reflexivity].
            * right. exists c1'. split; [reflexivity|exact Ec]. }
      destruct Hsplit as [(l1 & l2 & Ef & ->)|(c1' & -> & Ec)].
      * rewrite cpin_map. apply A2 with (l2 := l2). exact Ef.
      * destruct (B2 _ _ _ _ Ec) as [Ha Hb]. rewrite A1 in Ha.
        rewrite map_app, in_app_iff, cpin_map. tauto.
Qed.

Lemma whole_after_use : forall fw ps u', add_ports fw ps [] = Some u' ->
  forall c1 pt p c2, connections fw ps = (c1 ++ (pt, (p, (-1)%Z)) :: c2)%list -> ~ In p (map cpin c1).
Proof.
  intros fw ps u' H c1 pt p c2 E. apply add_ports_spec in H. destruct H as [_ H]. apply (H _ _ _ _ E).
Qed.

Lemma whole_only_nodup : forall fw ps u', add_ports fw ps [] = Some u' ->
  (forall c, In c (connections fw ps) -> snd (snd c) = (-1)%Z) ->
  NoDup (map cpin (connections fw ps)).
Proof.
  intros fw ps u' H Hw.
  assert (K : forall c1 c2, connections fw ps = (c1 ++ c2)%list -> NoDup (map cpin c1)).
  { intros c1. induction c1 as [|x c1 IH] using rev_ind; intros c2 E; [constructor|].
    rewrite map_app. cbn. apply NoDup_Add with (a := cpin x) (l := map cpin c1).
    - replace (map cpin c1) with (map cpin c1 ++ [])%list at 1 by apply app_nil_r. apply Add_app.
    - rewrite <- app_assoc in E. cbn in E. split; [apply (IH _ E)|].
      destruct x as [pt [p b]]. assert (Eb : b = (-1)%Z).
      { apply (Hw (pt, (p, b))). rewrite E. apply in_or_app. right; left; reflexivity. }
      subst b. cbn. apply (whole_after_use _ _ _ H _ _ _ _ E). }
  apply (K _ []). rewrite app_nil_r. reflexivity.
Qed.

(** The direction in the signature is that of the port, for whole pins. *)
Lemma add_pins_keep : forall l u t u' q d, add_pins u t l = Some u' -> In (q, d) u -> In (q, d) u'.
Proof.
  induction l as [|[p b] l IH]; intros u t u' q d H Hin; cbn in H.
  - inversion H; subst; assumption.
  - destruct (String.eqb p ""); [apply (IH _ _ _ _ _ H Hin)|].
    destruct ((b =? -1)%Z && is_used u p); [discriminate|]. apply (IH _ _ _ _ _ H).
    unfold insert_used. destruct (is_used u p); [assumption|apply in_or_app; left; assumption].
Qed.

Lemma add_pins_dir : forall l u t u' q, add_pins u t l = Some u' -> In (q, (-1)%Z) (flat l) -> In (q, t) u'.
Proof.
  induction l as [|[p b] l IH]; intros u t u' q H Hin; cbn in H; unfold flat in Hin; cbn in Hin; [contradiction|].
  destruct (String.eqb p "") eqn:Ep; cbn in Hin; [apply (IH _ _ _ _ H Hin)|].
  destruct ((b =? -1)%Z && is_used u p) eqn:Eb; [discriminate|].
  destruct Hin as [E|Hin]; [|apply (IH _ _ _ _ H Hin)]. inversion E; subst. cbn in Eb.
  apply (add_pins_keep _ _ _ _ _ _ H). unfold insert_used. rewrite Eb. apply in_or_app. right; left; reflexivity.
Qed.

Lemma direction_ok : forall fw ps u u' p d q, add_ports fw ps u = Some u' ->
  In (p, d, (q, (-1)%Z)) (connections fw ps) -> In (q, d) u'.
Proof.
  assert (Keep : forall fw ps u u' q d, add_ports fw ps u = Some u' -> In (q, d) u -> In (q, d) u').
  { induction ps as [|[p t] ps IH]; intros u u' q d H Hin; cbn in H; [inversion H; subst; assumption|].
    destruct (addTopModulePort fw p t u) as [u1|] eqn:E; [|discriminate].
    apply add_port_pins in E. destruct E as (l & _ & Ea). apply (IH _ _ _ _ H). apply (add_pins_keep _ _ _ _ _ _ Ea Hin). }
  induction ps as [|[p0 t] ps IH]; intros u u' p d q H Hin; [contradiction|]. cbn in H.
  destruct (addTopModulePort fw p0 t u) as [u1|] eqn:E; [|discriminate].
  apply add_port_pins in E. destruct E as (l & El & Ea).
  rewrite (connections_cons _ _ _ _ _ El) in Hin. apply in_app_or in Hin. destruct Hin as [Hin|Hin].
  - apply in_map_iff in Hin. destruct Hin as (r & Er & Hr). inversion Er; subst.
    apply (Keep _ _ _ _ _ _ H). apply (add_pins_dir _ _ _ _ _ Ea Hr).
  - apply (IH _ _ _ _ _ H Hin).
Qed.
