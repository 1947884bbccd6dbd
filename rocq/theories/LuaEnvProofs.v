From Coq Require Import String List Bool.
From Verif Require Import LuaEnvModel.
Import ListNotations.
Local Open Scope string_scope.
Local Open Scope list_scope.

Definition keys (ps : params) := map fst ps.

Lemma set_eq : forall g k v, set g k v k = v.
Proof. intros. unfold set. rewrite String.eqb_refl. reflexivity. Qed.
Lemma set_ne : forall g k v x, x <> k -> set g k v x = g x.
Proof. intros g k v x H. unfold set. destruct (String.eqb_spec x k); congruence. Qed.

Lemma findb_app_none : forall b k k' v, findb b k = None -> findb (b ++ [(k', v)]) k = if String.eqb k k' then Some v else None.
Proof.
  induction b as [|[a w] b IH]; intros k k' v H; cbn in *; [reflexivity|].
  destruct (String.eqb k a); [discriminate|]. apply IH; assumption.
Qed.
Lemma findb_app_some : forall b k k' v w, findb b k = Some w -> findb (b ++ [(k', v)]) k = Some w.
Proof.
  induction b as [|[a u] b IH]; intros k k' v w H; cbn in *; [discriminate|].
  destruct (String.eqb k a); [assumption|]. apply IH; assumption.
Qed.

Lemma backup_spec : forall ps g bk g1 bk1, NoDup (keys ps) -> (forall k, In k (keys ps) -> findb bk k = None) ->
  backup_loop ps g bk = (g1, bk1) ->
  (forall k, In k (keys ps) -> findb bk1 k = (if to_bool (g k) then Some (g k) else None)
                              /\ g1 k = (if to_bool (g k) then Nil else g k)) /\
  (forall k, ~ In k (keys ps) -> findb bk1 k = findb bk k /\ g1 k = g k).
Proof.
  induction ps as [|[k v] ps IH]; intros g bk g1 bk1 Hn Hf H; cbn in H.
  - inversion H; subst. split; [intros k []|]. auto.
  - cbn in Hn. inversion Hn as [|x l Hk Hn']; subst.
    assert (Hfk : findb bk k = None) by (apply Hf; left; reflexivity).
    destruct (to_bool (g k)) eqn:E.
    + apply IH in H; auto.
      2: { intros k' Hk'. rewrite findb_app_none by (apply Hf; right; exact Hk').
           destruct (String.eqb_spec k' k); [subst; contradiction|reflexivity]. }
      destruct H as [H1 H2]. split.
      * intros k' [<-|Hk']; cbn.
        -- destruct (H2 k Hk) as [Ha Hb]. rewrite Ha, Hb, set_eq, E. rewrite findb_app_none by assumption.
           rewrite String.eqb_refl. auto.
        -- destruct (H1 k' Hk') as [Ha Hb]. assert (k' <> k) by (intros ->; contradiction).
           rewrite set_ne in * by assumption. auto.
      * intros k' Hk'. cbn in Hk'. destruct (H2 k') as [Ha Hb]; [tauto|]. assert (k' <> k) by (intros ->; tauto).
        rewrite Ha, Hb, set_ne by assumption. split; [|reflexivity].
        destruct (findb bk k') eqn:Eb; [rewrite (findb_app_some _ _ _ _ _ Eb); reflexivity|].
        rewrite findb_app_none by assumption. destruct (String.eqb_spec k' k); [contradiction|reflexivity].
    + apply IH in H; auto. 2: { intros k' Hk'. apply Hf. right; assumption. }
      destruct H as [H1 H2]. split.
      * intros k' [<-|Hk']; cbn; [|apply H1; assumption].
        destruct (H2 k Hk) as [Ha Hb]. rewrite Ha, Hb, E, Hfk. auto.
      * intros k' Hk'. apply H2. cbn in Hk'. tauto.
Qed.

Lemma restore_spec : forall ps bk g k, NoDup (keys ps) ->
  restore_loop ps bk g k = (if in_dec string_dec k (keys ps) then match findb bk k with Some v => v | None => Nil end else g k).
Proof.
  induction ps as [|[k0 v] ps IH]; intros bk g k Hn; [reflexivity|]. cbn [restore_loop keys map fst].
  inversion Hn as [|x l Hk Hn']; subst. rewrite IH by assumption. cbn [in_dec]. fold (keys ps).
  destruct (in_dec string_dec k (keys ps)) as [Hin|Hout]; destruct (in_dec string_dec k (k0 :: keys ps)) as [Hin2|Hout2]; cbn in *; try tauto.
  - destruct Hin2 as [->|]; [|tauto]. rewrite set_eq. reflexivity.
  - rewrite set_ne by (intros ->; tauto). reflexivity.
Qed.

Lemma exec_param : forall body ps g k, NoDup (keys ps) -> In k (keys ps) -> g k <> LFalse ->
  executeLuaString body ps g k = g k.
Proof.
  intros body ps g k Hn Hk Hf. unfold executeLuaString. destruct (backup_loop ps g []) as [g1 bk] eqn:E.
  apply backup_spec in E; auto. destruct E as [E _]. destruct (E k Hk) as [E1 _].
  rewrite restore_spec by assumption. destruct (in_dec string_dec k (keys ps)); [|tauto]. rewrite E1.
  destruct (g k); cbn; congruence.
Qed.

Lemma exec_other : forall body ps g k, NoDup (keys ps) -> ~ In k (keys ps) ->
  executeLuaString body ps g k = body ps (fst (backup_loop ps g [])) k.
Proof.
  intros body ps g k Hn Hk. unfold executeLuaString. destruct (backup_loop ps g []) as [g1 bk].
  rewrite restore_spec by assumption. destruct (in_dec string_dec k (keys ps)); [tauto|reflexivity].
Qed.

Lemma params_visible : forall ps g k v, NoDup (keys ps) -> find ps k = Some v -> g k <> LFalse ->
  read ps (fst (backup_loop ps g [])) k = LVal v.
Proof.
  intros ps g k v Hn Hfind Hf.
  assert (Hk : In k (keys ps)).
  { clear - Hfind. induction ps as [|[a b] ps IH]; cbn in *; [discriminate|]. destruct (String.eqb_spec k a); [left; auto|right; auto]. }
  destruct (backup_loop ps g []) as [g1 bk] eqn:E. apply backup_spec in E; auto. destruct E as [E _].
  destruct (E k Hk) as [_ E2]. cbn. unfold read. rewrite E2. destruct (g k); cbn; rewrite ?Hfind; congruence.
Qed.

(** A body that assigns its parameters only (or locals). *)
Definition only_params (b : params -> globals -> globals) : Prop :=
  forall ps g k, ~ In k (keys ps) -> b ps g k = g k.

Lemma execute_all_restores : forall runs g,
  (forall b ps, In (b, ps) runs -> only_params b /\ NoDup (keys ps)) ->
  (forall k, g k <> LFalse) -> forall k, execute_all runs g k = g k.
Proof.
  induction runs as [|[b ps] runs IH]; intros g Hr Hg k; [reflexivity|]. cbn.
  destruct (Hr b ps (or_introl eq_refl)) as [Hb Hn].
  assert (E : forall k', executeLuaString b ps g k' = g k').
  { intros k'. destruct (in_dec string_dec k' (keys ps)) as [Hin|Hout]; [apply exec_param; auto|].
    rewrite exec_other by assumption. rewrite Hb by assumption.
    destruct (backup_loop ps g []) as [g1 bk] eqn:Eb. apply backup_spec in Eb; auto.
    destruct Eb as [_ Eb]. cbn. apply Eb; assumption. }
  rewrite IH; auto.
  - intros b' ps' Hin. apply Hr. right; assumption.
  - intros k'. rewrite E. apply Hg.
Qed.
