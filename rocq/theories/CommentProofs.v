From Coq Require Import Ascii List Bool Arith Lia.
From Verif Require Import CommentModel.
Import ListNotations.
Local Open Scope char_scope.

Lemma until_nl_app : forall b r, ~ In nl b -> until_nl (b ++ nl :: r) = nl :: r.
Proof.
  induction b as [|c b IH]; intros r H; [reflexivity|]. cbn. cbn in H.
  destruct (Ascii.eqb_spec c nl); [subst; tauto|]. apply IH. tauto.
Qed.

Lemma skip_until : forall sb b r, ~ In nl b -> until_nl (skip sb (b ++ nl :: r)) = nl :: r.
Proof.
  intros [] b r H; cbn [skip]; [|apply until_nl_app; assumption].
  induction b as [|c b IH]; [reflexivity|]. cbn in H. cbn [app drop_blanks]. destruct (is_blank c) eqn:E.
  - apply IH. tauto.
  - change (c :: b ++ nl :: r) with ((c :: b) ++ nl :: r). apply until_nl_app. cbn. tauto.
Qed.

Lemma line_comment : forall sb b r, ~ In nl b ->
  jumpOverComment sb ("/" :: "/" :: b ++ nl :: r) = JDone 0 (nl :: r).
Proof.
  intros sb b r H. unfold jumpOverComment, readChar, peekChar.
  replace (skip sb ("/" :: "/" :: b ++ nl :: r)) with ("/" :: "/" :: b ++ nl :: r) by (destruct sb; reflexivity).
  replace (skip sb ("/" :: b ++ nl :: r)) with ("/" :: b ++ nl :: r) by (destruct sb; reflexivity).
  cbn [Ascii.eqb]. replace (skip sb ("/" :: b ++ nl :: r)) with (skip sb (("/" :: b) ++ nl :: r)) by reflexivity.
  change (Ascii.eqb "/" "/") with true. cbv iota. rewrite skip_until; [reflexivity|]. cbn. intros [E|E]; [discriminate|tauto].
Qed.

(** Body of a block comment: each ['*'] is followed by an ordinary character. *)
Fixpoint stars_ok (b : list ascii) : Prop :=
  match b with
  | [] => True
  | c :: r =>
      (c = "*" -> match r with d :: _ => d <> "*" /\ d <> "/" /\ is_blank d = false | [] => False end) /\ stars_ok r
  end.

Lemma reach_free : forall b r, ~ In "*" b -> reachChar "*" (b ++ "*" :: r) = r.
Proof.
  induction b as [|c b IH]; intros r H; [reflexivity|]. cbn in *. destruct (Ascii.eqb_spec c "*"); [subst; tauto|]. apply IH; tauto.
Qed.

Lemma split_star : forall b, stars_ok b -> ~ In "*" b \/
  exists b1 d b2, b = b1 ++ "*" :: d :: b2 /\ ~ In "*" b1 /\ d <> "*" /\ d <> "/" /\ is_blank d = false /\ stars_ok (d :: b2).
Proof.
  induction b as [|c b IH]; intros H; [left; intros []|]. cbn in H. destruct H as [H1 H2].
  destruct (ascii_dec c "*") as [->|Hc].
  - right. destruct b as [|d b]; [destruct (H1 eq_refl)|]. destruct (H1 eq_refl) as (A & B & C).
    exists [], d, b. repeat split; auto; apply H2.
  - destruct (IH H2) as [Hn|(b1 & d & b2 & -> & Hb1 & Hd & Hd2 & Hd3 & Hs)].
    + left. intros [E|E]; [subst; congruence|tauto].
    + right. exists (c :: b1), d, b2. repeat split; auto; try apply Hs. intros [E|E]; [subst; congruence|tauto].
Qed.

Lemma block_loop_ok : forall sb fuel b r start, stars_ok b -> length (b ++ "*" :: "/" :: r) < fuel ->
  block_loop sb fuel start (b ++ "*" :: "/" :: r) = JDone (count_nl (firstn (length start - length r) start)) r.
Proof.
  induction fuel as [|f IH]; intros b r start Hs Hf; [lia|]. cbn [block_loop].
  destruct (split_star b Hs) as [Hn|(b1 & d & b2 & -> & Hb1 & Hd & Hd2 & Hd3 & Hs2)].
  - assert (E : forall X, match b ++ "*" :: "/" :: r with [] => JError | _ :: _ => X end = X) by (intros; destruct b; reflexivity).
    rewrite E. rewrite reach_free by assumption. unfold readChar.
    replace (skip sb ("/" :: r)) with ("/" :: r) by (destruct sb; reflexivity). reflexivity.
  - rewrite <- app_assoc. cbn [app].
    assert (E : forall X Y, match b1 ++ "*" :: Y with [] => JError | _ :: _ => X end = X) by (intros; destruct b1; reflexivity).
    rewrite E. rewrite reach_free by assumption. unfold readChar.
    assert (Es : skip sb (d :: b2 ++ "*" :: "/" :: r) = d :: b2 ++ "*" :: "/" :: r).
    { destruct sb; cbn [skip drop_blanks]; [rewrite Hd3|]; reflexivity. }
    rewrite Es. destruct (Ascii.eqb_spec d "/"); [contradiction|].
    apply IH; [apply Hs2|]. repeat (rewrite app_length in Hf; cbn [length] in Hf). cbn [app length]. rewrite app_length. cbn [length]. lia.
Qed.

Lemma firstn_pre : forall (b c r : list ascii), firstn (length (b ++ c ++ r) - length r) (b ++ c ++ r) = b ++ c.
Proof.
  intros b c r. rewrite !app_length. replace (length b + (length c + length r) - length r) with (length (b ++ c)) by (rewrite app_length; lia).
  rewrite app_assoc, firstn_app, Nat.sub_diag, firstn_all. cbn. apply app_nil_r.
Qed.

Lemma block_comment : forall sb b r, stars_ok b ->
  jumpOverComment sb ("/" :: "*" :: b ++ "*" :: "/" :: r) = JDone (count_nl b) r.
Proof.
  intros sb b r H. unfold jumpOverComment, readChar, peekChar.
  set (T := b ++ "*" :: "/" :: r).
  replace (skip sb ("/" :: "*" :: T)) with ("/" :: "*" :: T) by (destruct sb; reflexivity).
  replace (skip sb ("*" :: T)) with ("*" :: T) by (destruct sb; reflexivity).
  change (Ascii.eqb "*" "/") with false. change (Ascii.eqb "*" "*") with true. cbv iota.
  replace (skip sb ("*" :: T)) with ("*" :: T) by (destruct sb; reflexivity).
  unfold T. rewrite block_loop_ok by (auto; lia). f_equal.
  change (b ++ "*" :: "/" :: r) with (b ++ ["*"; "/"] ++ r). rewrite firstn_pre.
  unfold count_nl. rewrite filter_app, app_length. cbn. lia.
Qed.
