From Coq Require Import List Bool Arith Lia Permutation.
From Verif Require Import ModeModel.
Import ListNotations.

Definition mode_eq_dec : forall a b : mode, {a = b} + {a <> b}.
Proof. decide equality. Defined.

Lemma mode_eqb_spec : forall a b, mode_eqb a b = true <-> a = b.
Proof. destruct a, b; cbn; split; congruence. Qed.

Lemma insert_rev_perm : forall x r, Permutation (insert_rev x r) (x :: r).
Proof.
  induction r as [|y r IH]; cbn; [reflexivity|]. destruct (comp x y); [|reflexivity].
  rewrite IH. apply perm_swap.
Qed.
Lemma insert_step_perm : forall x r, Permutation (insert_step x r) (x :: r).
Proof.
  intros x r. unfold insert_step. destruct (rev r) eqn:E.
  - assert (r = []) as -> by (rewrite <- (rev_involutive r), E; reflexivity). reflexivity.
  - destruct (comp x m); [|apply insert_rev_perm]. rewrite Permutation_app_comm. reflexivity.
Qed.
Lemma sort_loop_perm : forall l r, Permutation (sort_loop r l) (r ++ l).
Proof.
  induction l as [|x l IH]; intros r; cbn.
  - rewrite app_nil_r. symmetry. apply Permutation_rev.
  - rewrite IH, insert_step_perm. cbn. apply Permutation_middle.
Qed.
Lemma std_sort_perm : forall l, Permutation (std_sort l) l.
Proof. intros. apply sort_loop_perm. Qed.

(** Order of the result. *)
Definition rank (m : mode) : nat := match m with Bmc => 0 | Tind => 1 | Cover => 2 | Empty => 3 end.

Lemma first_dup_none : forall l i, NoDup l -> first_dup l i = None.
Proof.
  induction l as [|a l IH]; intros i H; [reflexivity|]. destruct l as [|b l]; [reflexivity|].
  cbn [first_dup]. destruct (mode_eqb a b) eqn:E.
  - apply mode_eqb_spec in E. subst. inversion H. cbn in *. tauto.
  - apply IH. inversion H; assumption.
Qed.

Lemma std_unique_nodup : forall l, NoDup l -> std_unique l = l.
Proof. intros l H. unfold std_unique. rewrite first_dup_none by assumption. reflexivity. Qed.

Definition canonical (l : list mode) : list mode :=
  (if in_dec mode_eq_dec Bmc l then [Bmc] else []) ++
  (if in_dec mode_eq_dec Tind l then [Tind] else []) ++
  (if in_dec mode_eq_dec Cover l then [Cover] else []).

Lemma nodup_cases : forall l, NoDup l -> ~ In Empty l -> length l <= 3.
Proof.
  intros l H He. assert (incl l [Bmc; Tind; Cover]).
  { intros m Hm. destruct m; cbn; try tauto. }
  apply (NoDup_incl_length H H0).
Qed.

Lemma unit_modes_nodup : forall l, NoDup l -> ~ In Empty l -> l <> [] -> unit_modes l = canonical l.
Proof.
  intros l H He Hne. pose proof (nodup_cases l H He) as Hl. unfold unit_modes.
  replace (match l with [] => [Bmc] | _ :: _ => l end) with l by (destruct l; congruence).
  rewrite std_unique_nodup by assumption.
  destruct l as [|a [|b [|c [|d l]]]]; cbn in Hl; try lia; try congruence;
  repeat match goal with H : NoDup (_ :: _) |- _ => inversion H; clear H; subst end; cbn in *.
  - destruct a; try (exfalso; tauto); reflexivity.
  - destruct a, b; try (exfalso; tauto); reflexivity.
  - destruct a, b, c; try (exfalso; tauto); reflexivity.
Qed.

(** No listed mode is lost. *)
Lemma update_length : forall A (l : list A) n x, length (update l n x) = length l.
Proof. induction l; destruct n; cbn; intros; congruence. Qed.
Lemma nth_update_eq : forall A (l : list A) n x d, n < length l -> nth n (update l n x) d = x.
Proof. induction l; destruct n; cbn; intros; try lia; auto. apply IHl. lia. Qed.
Lemma nth_update_ne : forall A (l : list A) n m x d, n <> m -> nth m (update l n x) d = nth m l d.
Proof. induction l; destruct n, m; cbn; intros; try lia; auto. Qed.

Definition kept (dest k : nat) (l0 l : list mode) : Prop :=
  forall i, i < length l0 ->
    (i < k -> exists j, j <= dest /\ nth j l Empty = nth i l0 Empty) /\
    (k <= i -> nth i l Empty = nth i l0 Empty).

Lemma unique_loop_kept : forall n dest k l0 l, length l = length l0 -> S dest < k -> k + n = length l0 ->
  kept dest k l0 l ->
  forall i, i < length l0 -> In (nth i l0 Empty) (unique_loop n dest k l).
Proof.
  induction n as [|n IH]; intros dest k l0 l Hl Hd Hk HK i Hi; cbn [unique_loop].
  - destruct (HK i Hi) as [A _]. destruct A as (j & Hj & <-); [lia|]. apply nth_In. lia.
  - destruct (mode_eqb (nth dest l Empty) (nth k l Empty)) eqn:E.
    + apply mode_eqb_spec in E. apply (IH dest (S k) l0); try lia; try assumption.
      intros i' Hi'. destruct (HK i' Hi') as [A B]. split; intros H.
      * destruct (Nat.eq_dec i' k) as [->|]; [|apply A; lia]. exists dest. split; [lia|].
        rewrite E. apply B. lia.
      * apply B. lia.
    + apply (IH (S dest) (S k) l0); rewrite ?update_length; try lia; try assumption.
      intros i' Hi'. destruct (HK i' Hi') as [A B]. split; intros H.
      * assert (Hkk : nth k l Empty = nth k l0 Empty) by (destruct (HK k) as [_ Bk]; [lia|apply Bk; lia]).
        destruct (Nat.eq_dec i' k) as [->|Hne].
        -- exists (S dest). split; [lia|].
           rewrite nth_update_ne by lia. rewrite nth_update_eq by lia. exact Hkk.
        -- destruct A as (j & Hj & Ej); [lia|]. exists j. split; [lia|]. rewrite nth_update_ne by lia.
           rewrite nth_update_ne by lia. exact Ej.
      * rewrite !nth_update_ne by lia. apply B. lia.
Qed.

Lemma first_dup_some : forall l i d, first_dup l i = Some d ->
  i <= d /\ d - i + 1 < length l /\ nth (d - i) l Empty = nth (d - i + 1) l Empty.
Proof.
  induction l as [|a l IH]; intros i d H; [discriminate|]. destruct l as [|b l]; [discriminate|].
  cbn [first_dup] in H. destruct (mode_eqb a b) eqn:E.
  - inversion H; subst. apply mode_eqb_spec in E. rewrite Nat.sub_diag. cbn. repeat split; try lia. exact E.
  - apply IH in H. destruct H as (H1 & H2 & H3). replace (d - i) with (S (d - S i)) by lia.
    cbn [length] in *. repeat split; try lia. exact H3.
Qed.

Lemma std_unique_keeps : forall l m, In m l -> In m (std_unique l).
Proof.
  intros l m Hin. unfold std_unique. destruct (first_dup l 0) as [d|] eqn:E; [|assumption].
  apply first_dup_some in E. rewrite Nat.sub_0_r in E. destruct E as (_ & H2 & H3).
  destruct (In_nth _ _ Empty Hin) as (i & Hi & <-).
  apply unique_loop_kept with (l0 := l); try lia; auto.
  intros i' Hi'. split; [|reflexivity]. intros H.
  destruct (le_lt_dec i' d); [exists i'; split; [lia|reflexivity]|].
  assert (i' = d + 1) as -> by lia. exists d. split; [lia|exact H3].
Qed.

Lemma unit_modes_keeps : forall l m, In m l -> In m (unit_modes l).
Proof.
  intros l m H. unfold unit_modes. apply (Permutation_in _ (Permutation_sym (std_sort_perm _))).
  apply std_unique_keeps. destruct l; [contradiction|exact H].
Qed.
