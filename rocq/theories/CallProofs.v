From Coq Require Import String Ascii List Bool Lia Arith.
From Verif Require Import CallModel.
Import ListNotations.
Local Open Scope string_scope.

Fixpoint no_underscore (s : string) : Prop :=
  match s with EmptyString => True | String c r => c <> "_"%char /\ no_underscore r end.

Lemma after_last_none : forall s, no_underscore s -> after_last s = None.
Proof.
  induction s as [|c s IH]; cbn; intros H; [reflexivity|]. destruct H as [H1 H2]. rewrite (IH H2).
  destruct (Ascii.eqb_spec c "_"%char); [congruence|reflexivity].
Qed.

Lemma postfix_member : forall p m, no_underscore m -> memberPostfix (p ++ "_" ++ m) = m.
Proof.
  intros p m H. unfold memberPostfix.
  assert (E : after_last (p ++ "_" ++ m) = Some m).
  { induction p as [|c p IH]; cbn in *.
    - rewrite (after_last_none _ H). reflexivity.
    - rewrite IH. reflexivity. }
  rewrite E. reflexivity.
Qed.

(** Specification of the result: the formals are cut in consecutive segments, one
    per given parameter, in order: an expression takes one formal, a group takes
    the longest run of formals whose postfix is one of its members. *)
Inductive Seg : list given -> list string -> list matched -> Prop :=
| Seg_nil : Seg [] [] []
| Seg_expr : forall x gs e es ms, Seg gs es ms -> Seg (GExpr x :: gs) (e :: es) (MExpr x :: ms)
| Seg_group : forall b mem gs run es ms,
    (forall e, In e run -> In (memberPostfix e) mem) ->
    (forall e es', es = e :: es' -> ~ In (memberPostfix e) mem) ->
    (es = [] -> gs = []) ->
    Seg gs es ms ->
    Seg (GGroup b mem :: gs) (run ++ es) (map (fun e => MVar (b ++ "_" ++ memberPostfix e)) run ++ ms).

Lemma group_match_some : forall b mem e m, group_match b mem e = Some m ->
  In (memberPostfix e) mem /\ m = MVar (b ++ "_" ++ memberPostfix e).
Proof.
  unfold group_match. intros b mem e m H. destruct (existsb _ mem) eqn:E; [|discriminate].
  inversion H. split; [|reflexivity]. apply existsb_exists in E. destruct E as (x & Hx & Ex).
  apply String.eqb_eq in Ex. congruence.
Qed.

Lemma group_match_none : forall b mem e, group_match b mem e = None -> ~ In (memberPostfix e) mem.
Proof.
  unfold group_match. intros b mem e H Hin. destruct (existsb _ mem) eqn:E; [discriminate|].
  assert (existsb (fun m => String.eqb (memberPostfix e) m) mem = true).
  { apply existsb_exists. exists (memberPostfix e). split; [assumption|apply String.eqb_refl]. }
  congruence.
Qed.

Lemma match_loop_sound : forall fuel gs es acc ms,
  match_loop fuel gs es acc = Some ms -> exists ms', ms = (acc ++ ms')%list /\ Seg gs es ms'.
Proof.
  induction fuel as [|f IH]; intros gs es acc ms H; cbn [match_loop] in H; [discriminate|].
  destruct es as [|e es].
  - destruct gs as [|[x|b mem] gs]; try discriminate.
    + inversion H; subst. exists []. rewrite app_nil_r. split; [reflexivity|constructor].
    + destruct gs; [|discriminate]. inversion H; subst. exists []. rewrite app_nil_r. split; [reflexivity|].
      apply (Seg_group b mem [] [] [] []); try (intros; try discriminate; auto; fail); [intros ? []|constructor].
  - destruct gs as [|[x|b mem] gs]; try discriminate.
    + apply IH in H. destruct H as (ms' & -> & HS). rewrite <- app_assoc. eexists. split; [reflexivity|].
      cbn. constructor; assumption.
    + destruct (group_match b mem e) as [m|] eqn:E.
      * apply IH in H. destruct H as (ms' & -> & HS). rewrite <- app_assoc. eexists. split; [reflexivity|].
        apply group_match_some in E. destruct E as [Hin ->].
        inversion HS as [| |? ? ? run es' ms'' Hrun Hend Hg HS']; subst.
        cbn. apply (Seg_group b mem gs (e :: run) es' ms''); auto. intros e' [<-|He']; auto.
      * apply IH in H. destruct H as (ms' & -> & HS). eexists. split; [reflexivity|].
        apply group_match_none in E.
        apply (Seg_group b mem gs [] (e :: es) ms'); auto.
        -- intros ? [].
        -- intros ? ? H; inversion H; subst; assumption.
        -- discriminate.
Qed.

Lemma match_loop_complete : forall gs es ms, Seg gs es ms ->
  forall fuel acc, length gs + length es < fuel -> match_loop fuel gs es acc = Some (acc ++ ms)%list.
Proof.
  induction 1 as [|x gs e es ms HS IH|b mem gs run es ms Hrun Hend Hg HS IH]; intros fuel acc Hf.
  - destruct fuel; [lia|]. cbn. rewrite app_nil_r. reflexivity.
  - destruct fuel as [|f]; [lia|]. cbn [match_loop]. rewrite IH by (cbn in Hf; lia).
    rewrite <- app_assoc. reflexivity.
  - revert fuel acc Hf. induction run as [|e run IHr]; intros fuel acc Hf.
    + cbn [app map]. destruct fuel as [|f]; [lia|]. cbn [match_loop].
      destruct es as [|e es].
      * rewrite (Hg eq_refl) in *. inversion HS; subst. rewrite app_nil_r. reflexivity.
      * assert (E : group_match b mem e = None).
        { destruct (group_match b mem e) eqn:E; [|reflexivity]. apply group_match_some in E.
          exfalso. apply (Hend e es eq_refl). tauto. }
        rewrite E. apply IH. cbn in Hf. cbn. lia.
    + destruct fuel as [|f]; [lia|]. cbn [app map match_loop].
      assert (E : group_match b mem e = Some (MVar (b ++ "_" ++ memberPostfix e))).
      { unfold group_match. replace (existsb (fun m => (memberPostfix e =? m)%string) mem) with true; [reflexivity|].
        symmetry. apply existsb_exists. exists (memberPostfix e). split; [apply Hrun; left; reflexivity|apply String.eqb_refl]. }
      rewrite E. rewrite IHr.
      * rewrite <- app_assoc. reflexivity.
      * intros e' He'. apply Hrun. right; assumption.
      * cbn in *. rewrite app_length in *. lia.
Qed.

Lemma matchCallParams_iff : forall gs es ms,
  gs <> [] -> es <> [] -> (matchCallParams gs es = Some ms <-> Seg gs es ms).
Proof.
  intros gs es ms Hg He. unfold matchCallParams.
  destruct gs as [|g gs]; [congruence|]. destruct es as [|e es]; [congruence|]. split; intros H.
  - apply match_loop_sound in H. destruct H as (ms' & -> & HS). exact HS.
  - rewrite (match_loop_complete _ _ _ H) by lia. reflexivity.
Qed.

Lemma Seg_length : forall gs es ms, Seg gs es ms -> length ms = length es.
Proof.
  induction 1; cbn; [reflexivity|lia|]. rewrite !app_length, map_length. lia.
Qed.

Lemma match_length : forall gs es ms, matchCallParams gs es = Some ms -> length ms = length es.
Proof.
  intros [|g gs] [|e es] ms H; cbn in H; try discriminate.
  - inversion H; reflexivity.
  - apply (Seg_length (g :: gs)). apply matchCallParams_iff; try congruence. exact H.
Qed.

Lemma Seg_scalars : forall l l' ms, Seg (map GExpr l) l' ms -> length l = length l' /\ ms = map MExpr l.
Proof.
  induction l as [|y l IH]; intros l' ms H; cbn in H.
  - inversion H; subst. split; reflexivity.
  - inversion H as [|x0 gs0 e0 es0 ms0 HS| ]; subst. apply IH in HS. destruct HS as [HL ->]. cbn. split; [congruence|reflexivity].
Qed.

Lemma scalars_ok : forall xs es ms,
  matchCallParams (map GExpr xs) es = Some ms <-> length xs = length es /\ ms = map MExpr xs.
Proof.
  intros xs es ms. destruct xs as [|x xs]; destruct es as [|e es].
  - cbn. split; [intros H; inversion H; auto|intros [_ ->]; reflexivity].
  - cbn. split; [discriminate|intros [H _]; discriminate].
  - cbn. split; [discriminate|intros [H _]; discriminate].
  - rewrite matchCallParams_iff by discriminate. split.
    + apply Seg_scalars.
    + intros [Hl ->]. revert Hl. generalize (x :: xs) as l. generalize (e :: es) as l'.
      intros l'. induction l' as [|y l' IH]; intros [|z l] Hl; cbn in Hl; try discriminate; cbn; constructor.
      apply IH. lia.
Qed.

(** A call with scalars, one group in order of the formals' members, scalars. *)
Lemma group_call_ok : forall xs1 fs1 b p mem sel xs2 fs2,
  length xs1 = length fs1 -> length xs2 = length fs2 ->
  (forall m, In m sel -> In m mem /\ no_underscore m) ->
  (forall f fs', fs2 = f :: fs' -> ~ In (memberPostfix f) mem) ->
  (fs1 ++ sel <> [])%list \/ fs2 <> [] ->
  matchCallParams (map GExpr xs1 ++ GGroup b mem :: map GExpr xs2)
                  (fs1 ++ map (fun m => p ++ "_" ++ m)%string sel ++ fs2)
  = Some (map MExpr xs1 ++ map (fun m => MVar (b ++ "_" ++ m)%string) sel ++ map MExpr xs2)%list.
Proof.
  intros xs1 fs1 b p mem sel xs2 fs2 H1 H2 Hsel Hend Hne.
  assert (HSc : forall xs fs, length xs = length fs -> Seg (map GExpr xs) fs (map MExpr xs)).
  { induction xs as [|x xs IH]; intros [|f fs] H; cbn in H; try discriminate; cbn; constructor. apply IH. lia. }
  apply matchCallParams_iff.
  - destruct xs1; discriminate.
  - intros E. apply app_eq_nil in E. destruct E as [-> E]. apply app_eq_nil in E. destruct E as [E ->].
    destruct sel; [|discriminate]. cbn in Hne. destruct Hne; congruence.
  - revert fs1 H1 Hne. induction xs1 as [|x xs1 IH]; intros [|f fs1] H1 Hne; cbn in H1; try discriminate; cbn [map app].
    + replace (map (fun m => MVar (b ++ "_" ++ m)) sel) with
        (map (fun e => MVar (b ++ "_" ++ memberPostfix e)) (map (fun m => p ++ "_" ++ m) sel)).
      * apply Seg_group.
        -- intros e He. apply in_map_iff in He. destruct He as (m & <- & Hm). apply Hsel in Hm.
           rewrite postfix_member by tauto. tauto.
        -- exact Hend.
        -- intros ->. cbn in H2. destruct xs2; [reflexivity|discriminate].
        -- apply HSc; assumption.
      * rewrite map_map. apply map_ext_in. intros m Hm. rewrite postfix_member; [reflexivity|]. apply Hsel; assumption.
    + constructor. destruct fs1 as [|f' fs1].
      * destruct xs1; [|discriminate]. cbn [map app].
        replace (map (fun m => MVar (b ++ "_" ++ m)) sel) with
        (map (fun e => MVar (b ++ "_" ++ memberPostfix e)) (map (fun m => p ++ "_" ++ m) sel)).
        -- apply Seg_group.
           ++ intros e He. apply in_map_iff in He. destruct He as (m & <- & Hm). apply Hsel in Hm.
              rewrite postfix_member by tauto. tauto.
           ++ exact Hend.
           ++ intros ->. cbn in H2. destruct xs2; [reflexivity|discriminate].
           ++ apply HSc; assumption.
        -- rewrite map_map. apply map_ext_in. intros m Hm. rewrite postfix_member; [reflexivity|]. apply Hsel; assumption.
      * apply IH; [lia|]. left. discriminate.
Qed.
