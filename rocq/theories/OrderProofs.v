From Coq Require Import List Bool Arith Lia Permutation.
From Verif Require Import OrderModel.
Import ListNotations.

(** Stage [s] has to be evaluated before stage [o]. *)
Definition must_precede (st : list stage) (s o : nat) : Prop :=
  exists ss so w, nth_error st s = Some ss /\ nth_error st o = Some so /\ In w (read so) /\
    ((o < s /\ In w (written_backward ss)) \/ (s < o /\ In w (written_forward ss))).

(** Position-based reading of an order. *)
Definition before (l : list nat) (s o : nat) : Prop := exists l1 l2, l = l1 ++ o :: l2 /\ In s l1.

Definition valid_order (st : list stage) (l : list nat) : Prop :=
  Permutation l (seq 0 (length st)) /\ forall s o, must_precede st s o -> before l s o.

Lemma count_In : forall w l, count w l = true <-> In w l.
Proof.
  intros w l. unfold count. rewrite existsb_exists. split.
  - intros (x & Hx & E). apply Nat.eqb_eq in E. congruence.
  - intros H. exists w. split; [assumption|apply Nat.eqb_refl].
Qed.

Lemma nth_stage : forall st i x, nth_error st i = Some x -> nth i st no_stage = x.
Proof. intros. apply nth_error_nth. assumption. Qed.

Lemma constraints_spec : forall st o s, In (o, s) (constraints st) <-> must_precede st s o.
Proof.
  intros st o s. unfold constraints, must_precede. split.
  - intros H. apply in_flat_map in H. destruct H as (s' & Hs & H). apply in_seq in Hs.
    destruct (nth_error st s') as [ss|] eqn:Es; [|apply nth_error_None in Es; lia].
    rewrite (nth_stage _ _ _ Es) in H. apply in_app_or in H. destruct H as [H|H].
    + apply in_flat_map in H. destruct H as (w & Hw & H). apply in_flat_map in H. destruct H as (o' & Ho & H).
      apply in_rev in Ho. apply in_seq in Ho.
      destruct (count w _) eqn:E; [|contradiction]. destruct H as [H|[]]. inversion H; subst. clear H.
      destruct (nth_error st o) as [so|] eqn:Eo; [|apply nth_error_None in Eo; lia].
      rewrite (nth_stage _ _ _ Eo) in E. apply count_In in E.
      exists ss, so, w. split; [exact Es|]. split; [reflexivity|]. split; [exact E|]. left. split; [lia|assumption].
    + apply in_flat_map in H. destruct H as (w & Hw & H). apply in_flat_map in H. destruct H as (o' & Ho & H).
      apply in_seq in Ho.
      destruct (count w _) eqn:E; [|contradiction]. destruct H as [H|[]]. inversion H; subst. clear H.
      destruct (nth_error st o) as [so|] eqn:Eo; [|apply nth_error_None in Eo; lia].
      rewrite (nth_stage _ _ _ Eo) in E. apply count_In in E.
      exists ss, so, w. split; [exact Es|]. split; [reflexivity|]. split; [exact E|]. right. split; [lia|assumption].
  - intros (ss & so & w & Es & Eo & Hr & H).
    assert (Hs : s < length st) by (apply nth_error_Some; congruence).
    assert (Ho : o < length st) by (apply nth_error_Some; congruence).
    apply in_flat_map. exists s. split; [apply in_seq; lia|].
    rewrite (nth_stage _ _ _ Es). apply in_or_app. destruct H as [[Hlt Hw]|[Hlt Hw]]; [left|right];
    (apply in_flat_map; exists w; split; [assumption|]; apply in_flat_map; exists o; split;
     [first [apply in_rev; rewrite rev_involutive; apply in_seq; lia | apply in_seq; lia]|]);
    rewrite (nth_stage _ _ _ Eo); (destruct (count w (read so)) eqn:E; [left; reflexivity|]);
    apply count_In in Hr; congruence.
Qed.

Lemma is_free_spec : forall cs ns s, is_free cs ns s = true <-> forall c, In (s, c) cs -> ~ In c ns.
Proof.
  intros cs ns s. unfold is_free. rewrite forallb_forall. split.
  - intros H c Hc Hin. specialize (H _ Hc). cbn in H. rewrite Nat.eqb_refl in H. apply count_In in Hin. rewrite Hin in H. discriminate.
  - intros H [a c] Hc. cbn. destruct (Nat.eqb_spec a s) as [->|]; [|reflexivity]. cbn.
    destruct (count c ns) eqn:E; [|reflexivity]. apply count_In in E. exfalso. apply (H c Hc E).
Qed.

Lemma remove_length_lt : forall s l, In s l -> NoDup l -> S (length (remove Nat.eq_dec s l)) = length l.
Proof.
  intros s l. induction l as [|x l IH]; intros Hin Hn; [contradiction|]. cbn. inversion Hn; subst.
  destruct (Nat.eq_dec s x) as [->|Hne].
  - rewrite notin_remove by assumption. reflexivity.
  - cbn. f_equal. apply IH; [|assumption]. destruct Hin; [congruence|assumption].
Qed.
Lemma remove_NoDup : forall s l, NoDup l -> NoDup (remove Nat.eq_dec s l).
Proof.
  intros s l. induction l as [|x l IH]; intros Hn; cbn; [constructor|]. inversion Hn; subst.
  destruct (Nat.eq_dec s x); [auto|]. constructor; [|auto]. intros Hin. apply in_remove in Hin. tauto.
Qed.
Lemma remove_perm : forall s l, In s l -> NoDup l -> Permutation l (s :: remove Nat.eq_dec s l).
Proof.
  intros s l. induction l as [|x l IH]; intros Hin Hn; [contradiction|]. cbn. inversion Hn; subst.
  destruct (Nat.eq_dec s x) as [->|Hne].
  - rewrite notin_remove by assumption. reflexivity.
  - destruct Hin as [->|Hin]; [congruence|]. rewrite (IH Hin H2) at 1. apply perm_swap.
Qed.

Lemma select_sound : forall cs n ns l, NoDup ns -> length ns <= n -> select cs n ns = Some l ->
  Permutation l ns /\ forall s o, In (o, s) cs -> In s ns -> In o ns -> before l s o.
Proof.
  intros cs. induction n as [|n IH]; intros ns l Hn Hl H.
  - destruct ns; [|cbn in Hl; lia]. cbn in H. inversion H; subst. split; [constructor|]. intros s o _ [].
  - cbn [select] in H. destruct ns as [|x0 ns0] eqn:Ens.
    { inversion H; subst. split; [constructor|]. intros s o _ []. }
    rewrite <- Ens in *. clear Ens.
    destruct (find (is_free cs ns) ns) as [s|] eqn:Ef; [|discriminate].
    apply find_some in Ef. destruct Ef as [Hin Hfree].
    destruct (select cs n (remove Nat.eq_dec s ns)) as [l'|] eqn:Es; [|discriminate]. inversion H; subst. clear H.
    pose proof (remove_length_lt s ns Hin Hn) as Hlen.
    destruct (IH (remove Nat.eq_dec s ns) l' (remove_NoDup _ _ Hn)) as [HP HO]; [lia|assumption|].
    split.
    + rewrite (remove_perm s ns Hin Hn). constructor. assumption.
    + intros a o Hc Ha Ho. rewrite is_free_spec in Hfree.
      destruct (Nat.eq_dec o s) as [->|Hos]; [exfalso; apply (Hfree a Hc Ha)|].
      destruct (Nat.eq_dec a s) as [->|Has].
      * assert (Hol : In o l') by (apply (Permutation_in _ (Permutation_sym HP)); apply in_in_remove; auto).
        apply in_split in Hol. destruct Hol as (l1 & l2 & ->). exists (s :: l1), l2. split; [reflexivity|left; reflexivity].
      * destruct (HO a o Hc) as (l1 & l2 & -> & H1); try (apply in_in_remove; auto).
        exists (s :: l1), l2. split; [reflexivity|right; assumption].
Qed.

(** If some order of the remaining stages is valid, a free stage exists: the first of that order. *)
Lemma before_first : forall x l s o, NoDup (x :: l) -> before (x :: l) s o -> o <> x.
Proof.
  intros x l s o Hn (l1 & l2 & E & Hin) ->. destruct l1 as [|y l1]; [contradiction|]. cbn in E. inversion E; subst.
  inversion Hn; subst. apply H1. apply in_or_app. right; left; reflexivity.
Qed.

Lemma before_irrefl : forall l s, NoDup l -> ~ before l s s.
Proof.
  intros l s Hn (l1 & l2 & -> & Hin). apply NoDup_remove_2 in Hn. apply Hn. apply in_or_app. left; assumption.
Qed.

Lemma select_complete : forall cs n ns q, NoDup q -> length ns <= n -> NoDup ns ->
  (forall x, In x ns -> In x q) ->
  (forall s o, In (o, s) cs -> In s ns -> In o ns -> before q s o) -> select cs n ns <> None.
Proof.
  intros cs. induction n as [|n IH]; intros ns q Hq Hl Hn Hsub Hb; [discriminate|]. cbn [select].
  destruct ns as [|x0 ns0] eqn:Ens; [discriminate|]. rewrite <- Ens in *.
  destruct (find (is_free cs ns) ns) as [s|] eqn:Ef.
  - apply find_some in Ef. destruct Ef as [Hin _]. pose proof (remove_length_lt s ns Hin Hn).
    assert (K : select cs n (remove Nat.eq_dec s ns) <> None).
    { apply (IH _ q); auto.
      - lia.
      - apply remove_NoDup; assumption.
      - intros x Hx. apply in_remove in Hx. apply Hsub. tauto.
      - intros a o Hc Ha Ho. apply in_remove in Ha. apply in_remove in Ho. apply Hb; tauto. }
    destruct (select cs n (remove Nat.eq_dec s ns)); [discriminate|contradiction].
  - (* the first element of q in ns is free *)
    exfalso.
    assert (K : exists q1 x q2, q = q1 ++ x :: q2 /\ In x ns /\ forall y, In y q1 -> ~ In y ns).
    { clear - Hsub Ens. assert (Hx : In x0 q) by (apply Hsub; subst; left; reflexivity).
      assert (Hx0 : In x0 ns) by (subst; left; reflexivity). clear Ens Hsub.
      induction q as [|y q IH]; [contradiction|].
      destruct (in_dec Nat.eq_dec y ns) as [Hy|Hy].
      - exists [], y, q. split; [reflexivity|]. split; [assumption|]. intros z [].
      - destruct Hx as [->|Hx]; [contradiction|]. destruct (IH Hx) as (q1 & x & q2 & -> & H1 & H2).
        exists (y :: q1), x, q2. split; [reflexivity|]. split; [assumption|]. intros z [<-|Hz]; auto. }
    destruct K as (q1 & x & q2 & -> & Hx & Hq1).
    pose proof (find_none _ _ Ef x Hx) as Hnf. apply not_true_iff_false in Hnf. apply Hnf. apply is_free_spec.
    intros c Hc Hcin. destruct (Hb c x Hc Hcin Hx) as (l1 & l2 & E & Hin).
    assert (l1 = q1).
    { clear - E Hq. revert q1 E Hq. induction l1 as [|a l1 IH]; intros [|b q1] E Hq; cbn in E; inversion E; subst.
      - reflexivity.
      - exfalso. inversion Hq; subst. apply H1. apply in_or_app. right; left; reflexivity.
      - exfalso. inversion Hq; subst. apply H1. apply in_or_app. right; left; reflexivity.
      - f_equal. apply IH; [assumption|]. inversion Hq; assumption. }
    subst l1. apply (Hq1 c Hin Hcin).
Qed.

Lemma order_sound : forall st l, order_stages st = Some l -> valid_order st l.
Proof.
  intros st l H. unfold order_stages in H. apply select_sound in H; [|apply seq_NoDup|rewrite seq_length; lia].
  destruct H as [HP HO]. split; [assumption|]. intros s o Hm. apply HO.
  - apply constraints_spec. assumption.
  - destruct Hm as (ss & so & w & Es & Eo & _). apply in_seq. split; [lia|]. cbn. apply nth_error_Some. congruence.
  - destruct Hm as (ss & so & w & Es & Eo & _). apply in_seq. split; [lia|]. cbn. apply nth_error_Some. congruence.
Qed.

Lemma order_complete : forall st l, valid_order st l -> order_stages st <> None.
Proof.
  intros st l [HP HO]. unfold order_stages. apply (select_complete _ _ _ l).
  - eapply Permutation_NoDup; [apply Permutation_sym; exact HP|apply seq_NoDup].
  - rewrite seq_length. lia.
  - apply seq_NoDup.
  - intros x Hx. apply (Permutation_in _ (Permutation_sym HP)). assumption.
  - intros s o Hc _ _. apply HO. apply constraints_spec. assumption.
Qed.

(** Without ^= and v= the stages keep their order. *)
Lemma select_free : forall cs n ns, length ns <= n -> NoDup ns -> (forall o s, ~ In (o, s) cs) -> select cs n ns = Some ns.
Proof.
  intros cs. induction n as [|n IH]; intros ns Hl Hn Hc.
  - destruct ns; [reflexivity|cbn in Hl; lia].
  - destruct ns as [|x ns]; [reflexivity|]. cbn [select find].
    assert (E : is_free cs (x :: ns) x = true) by (apply is_free_spec; intros c H; exfalso; apply (Hc _ _ H)).
    rewrite E. cbn [remove]. destruct (Nat.eq_dec x x) as [_|]; [|congruence]. inversion Hn; subst.
    rewrite notin_remove by assumption. rewrite IH; auto. cbn in Hl. lia.
Qed.

Lemma order_natural : forall st, (forall s, In s st -> written_backward s = [] /\ written_forward s = []) ->
  order_stages st = Some (seq 0 (length st)).
Proof.
  intros st H. unfold order_stages. apply select_free.
  - rewrite seq_length. lia.
  - apply seq_NoDup.
  - intros o s Hc. apply constraints_spec in Hc. destruct Hc as (ss & so & w & Es & _ & _ & Hw).
    apply nth_error_In in Es. destruct (H _ Es) as [E1 E2]. rewrite E1, E2 in Hw. cbn in Hw. tauto.
Qed.
