From Coq Require Import List Bool Arith Lia.
From Verif Require Import TableModel.
Import ListNotations.

(** Specification: content of a table, from the language documentation. *)
Definition list_content {V} (l : list V) (p : pad V) (i : nat) : option V :=
  match nth_error l i with
  | Some v => Some v
  | None => match p with PadWith v => Some v | _ => None end
  end.

Lemma resize_nth : forall V (l : list V) n v i, i < n ->
  nth_error (resize l n v) i = match nth_error l i with Some x => Some x | None => Some v end.
Proof.
  intros V l n v i Hi. unfold resize. destruct (nth_error l i) as [x|] eqn:E.
  - rewrite nth_error_app1; [assumption|]. apply nth_error_Some. congruence.
  - apply nth_error_None in E. rewrite nth_error_app2 by assumption.
    apply nth_error_repeat. lia.
Qed.

Lemma sized_list : forall V (zero : V) n l p, 0 < n ->
  (forall t, readInitList zero n (IList l p) = Some t ->
     exists vals, t = Table n vals /\ length vals <= n /\
       forall i, i < n -> emitted_init t i = list_content l p i) /\
  (readInitList zero n (IList l p) <> None <-> length l = n \/ (length l < n /\ p <> NoPad)).
Proof.
  intros V zero n l p Hn. unfold readInitList.
  destruct (n =? 0) eqn:E0; [apply Nat.eqb_eq in E0; lia|].
  destruct (length l =? n) eqn:E1.
  - apply Nat.eqb_eq in E1. split.
    + intros t H. inversion H; subst. exists l. split; [reflexivity|]. split; [lia|].
      intros i Hi. unfold list_content. cbn. destruct (nth_error l i) eqn:E; [reflexivity|].
      apply nth_error_None in E. lia.
    + split; [intros _; left; assumption|intros _; congruence].
  - apply Nat.eqb_neq in E1. destruct (length l <? n) eqn:E2.
    + apply Nat.ltb_lt in E2. destruct p.
      * split; [discriminate|]. split; [congruence|]. intros [H|[_ H]]; congruence.
      * split.
        -- intros t H. inversion H; subst. exists (resize l n v). split; [reflexivity|]. split.
           ++ unfold resize. rewrite app_length, repeat_length. lia.
           ++ intros i Hi. cbn. rewrite resize_nth by assumption. reflexivity.
        -- split; [intros _; right; split; [assumption|discriminate]|intros _; congruence].
      * split.
        -- intros t H. inversion H; subst. exists l. split; [reflexivity|]. split; [lia|].
           intros i Hi. unfold list_content. cbn. destruct (nth_error l i); reflexivity.
        -- split; [intros _; right; split; [assumption|discriminate]|intros _; congruence].
    + apply Nat.ltb_ge in E2. split; [discriminate|]. split; [congruence|]. intros [H|[H _]]; lia.
Qed.

Lemma autosize : forall V (zero : V) l p,
  readInitList zero 0 (IList l p) = Some (Table (length l) l) /\
  readInitList zero 0 (IString l) = Some (Table (S (length l)) (l ++ [zero])).
Proof.
  intros. unfold readInitList. cbn. split; [reflexivity|].
  rewrite app_length. cbn. rewrite Nat.add_1_r. reflexivity.
Qed.

Lemma sized_string_accept : forall V (zero : V) n l, 0 < n ->
  (readInitList zero n (IString l) <> None <-> S (length l) <= n).
Proof.
  intros V zero n l Hn. unfold readInitList.
  destruct (n =? 0) eqn:E0; [apply Nat.eqb_eq in E0; lia|]. rewrite app_length. cbn [length].
  destruct (length l + 1 =? n) eqn:E1.
  - apply Nat.eqb_eq in E1. split; [intros _; lia|intros _; congruence].
  - apply Nat.eqb_neq in E1. destruct (length l + 1 <? n) eqn:E2.
    + apply Nat.ltb_lt in E2. split; [intros _; lia|intros _; congruence].
    + apply Nat.ltb_ge in E2. split; [congruence|lia].
Qed.

Lemma sized_string_content : forall V (zero : V) n l t, 0 < n ->
  readInitList zero n (IString l) = Some t ->
  forall i, emitted_init t i = if i <? length l then nth_error l i else if i =? length l then Some zero else None.
Proof.
  intros V zero n l t Hn H i. unfold readInitList in H.
  destruct (n =? 0) eqn:E0; [apply Nat.eqb_eq in E0; lia|].
  assert (E : emitted_init t i = nth_error (l ++ [zero]) i).
  { destruct (length (l ++ [zero]) =? n); [inversion H; reflexivity|].
    destruct (length (l ++ [zero]) <? n); inversion H; reflexivity. }
  rewrite E. destruct (i <? length l) eqn:E1.
  - apply Nat.ltb_lt in E1. apply nth_error_app1; assumption.
  - apply Nat.ltb_ge in E1. rewrite nth_error_app2 by assumption.
    destruct (i =? length l) eqn:E2.
    + apply Nat.eqb_eq in E2. subst. rewrite Nat.sub_diag. reflexivity.
    + apply Nat.eqb_neq in E2. destruct (i - length l) as [|k] eqn:E3; [lia|]. cbn. destruct k; reflexivity.
Qed.

Lemma reset_values_ok : forall V (zero : V) n l p t, 0 < n -> p <> PadUninit ->
  readInitList zero n (IList l p) = Some t ->
  exists vals, reset_values t = Some vals /\ length vals = n /\
    forall i, i < n -> nth_error vals i = list_content l p i.
Proof.
  intros V zero n l p t Hn Hp H.
  assert (HL : exists vals, t = Table n vals /\ length vals = n).
  { unfold readInitList in H. destruct (n =? 0) eqn:E0; [apply Nat.eqb_eq in E0; lia|].
    destruct (length l =? n) eqn:E1; [apply Nat.eqb_eq in E1; inversion H; eauto|].
    destruct (length l <? n) eqn:E2; [|discriminate]. apply Nat.ltb_lt in E2.
    destruct p; try discriminate; [|congruence]. inversion H; subst. eexists. split; [reflexivity|].
    unfold resize. rewrite app_length, repeat_length. lia. }
  destruct HL as (vals & -> & Hlen). exists vals. unfold reset_values. rewrite Hlen, Nat.leb_refl, <- Hlen, firstn_all.
  split; [reflexivity|]. split; [reflexivity|]. intros i Hi. rewrite Hlen in *.
  destruct (sized_list V zero n l p Hn) as [A _]. destruct (A _ H) as (v & E & _ & Hc). apply (Hc i Hi).
Qed.
