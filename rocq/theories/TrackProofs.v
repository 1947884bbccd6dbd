(** When a tracker reads as its expression. *)
From Coq Require Import List Bool Arith ZArith Lia.
Import ListNotations.
From Verif Require Import FsmModel FsmRun FsmEmit FsmArms UseModel UseProofs DefineModel DefineProofs DefineSim DefineCycle TrackModel.

Lemma memb_false x l : memb x l = false <-> ~ In x l.
Proof.
  unfold memb. split.
  - intros H I. rewrite <- not_true_iff_false, existsb_exists in H. apply H. exists x. split; [exact I|apply Nat.eqb_refl].
  - intros H. apply not_true_iff_false. rewrite existsb_exists. intros (y & I & E). apply Nat.eqb_eq in E. subst. contradiction.
Qed.
Lemma memb_true x l : memb x l = true <-> In x l.
Proof.
  unfold memb. rewrite existsb_exists. split.
  - intros (y & I & E). apply Nat.eqb_eq in E. now subst.
  - intros I. exists x. split; [exact I|apply Nat.eqb_refl].
Qed.

(** * Equations *)
Lemma asg_if e a b : asg (VIf e a b) = asgs a ++ asgs b.
Proof.
  assert (E : forall l, (fix all (l : list vst) : list var := match l with [] => [] | c :: r => asg c ++ all r end) l = asgs l).
  { unfold asgs. induction l as [|c r IH]; [reflexivity|]. cbn [map concat]. now rewrite <- IH. }
  cbn [asg]. now rewrite !E.
Qed.
Lemma asg_case e cs : asg (VCase e cs) = concat (map (fun c => asgs (snd c)) cs).
Proof.
  assert (E : forall l, (fix all (l : list vst) : list var := match l with [] => [] | c :: r => asg c ++ all r end) l = asgs l).
  { unfold asgs. induction l as [|c r IH]; [reflexivity|]. cbn [map concat]. now rewrite <- IH. }
  cbn [asg]. induction cs as [|[v l] r IH]; [reflexivity|]. cbn [map concat snd]. now rewrite <- IH, E.
Qed.
Lemma asgs_cons c r : asgs (c :: r) = asg c ++ asgs r.
Proof. reflexivity. Qed.

Lemma pick_in {A} v (cs : list (option Z * A)) l : pick v cs = Some l -> exists w, In (w, l) cs.
Proof.
  unfold pick. destruct (pick_case v cs) as [x|] eqn:E.
  - intros [= ->]. clear -E. induction cs as [|[[z|] a] r IH]; cbn [pick_case] in E; [discriminate| |].
    + destruct (z =? v)%Z; [injection E as ->; exists (Some z); now left|]. destruct (IH E) as [w I]. exists w. now right.
    + destruct (IH E) as [w I]. exists w. now right.
  - clear E. intros E. induction cs as [|[[z|] a] r IH]; cbn [pick_default] in E; [discriminate| |].
    + destruct (IH E) as [w I]. exists w. now right.
    + injection E as ->. exists None. now left.
Qed.

(** * What is not assigned keeps its value *)
Lemma frame_list Q l : Forall (fun c => forall s x, ~ In x (asg c) -> fst (vexec Q c s) x = fst s x) l ->
  forall s x, ~ In x (asgs l) -> fst (vexecs Q l s) x = fst s x.
Proof.
  induction 1 as [|c r H _ IH]; intros s x N; [reflexivity|]. cbn [vexecs]. rewrite asgs_cons in N.
  rewrite IH; [apply H|]; intros I; apply N, in_or_app; auto.
Qed.
Lemma frame1 Q c : forall s x, ~ In x (asg c) -> fst (vexec Q c s) x = fst s x.
Proof.
  induction c as [x e|n|e a b Ha Hb|e cs Hcs] using vst_ind'; intros s y N.
  - cbn [vexec fst]. unfold upd. destruct (Nat.eqb_spec y x) as [->|]; [|reflexivity]. exfalso. apply N. now left.
  - reflexivity.
  - rewrite vexec_if. rewrite asg_if in N. destruct (truth _); eapply frame_list; eauto; intros I; apply N, in_or_app; auto.
  - rewrite vexec_case. rewrite asg_case in N. destruct (pick _ cs) as [l|] eqn:P; [|reflexivity]. apply pick_in in P. destruct P as [w I].
    rewrite Forall_forall in Hcs. specialize (Hcs _ I). cbn [snd] in Hcs. eapply frame_list; eauto.
    intros J. apply N. apply in_concat. exists (asgs l). split; [apply in_map_iff; exists (w, l); auto|exact J].
Qed.
Lemma frame Q l : forall s x, ~ In x (asgs l) -> fst (vexecs Q l s) x = fst s x.
Proof. apply frame_list. apply Forall_forall. intros c _. apply frame1. Qed.

Section Trackers.
  Variable ts : list trk.
  Notation w := (isw ts).
  Notation M := (meaning ts).

  Lemma lates_fix after l : (fix all (l : list vst) : bool := match l with [] => true | c :: r => late ts (asgs r ++ after) c && all r end) l = lates ts after l.
  Proof. induction l as [|c r IH]; [reflexivity|]. cbn [lates]. now rewrite <- IH. Qed.
  Lemma late_if after e a b : late ts after (VIf e a b) = calm ts (asgs a ++ asgs b ++ after) e && (lates ts after a && lates ts after b).
  Proof. cbn [late]. now rewrite !lates_fix. Qed.
  Lemma late_case after e cs : late ts after (VCase e cs) =
    calm ts (concat (map (fun c => asgs (snd c)) cs) ++ after) e && forallb (fun c => lates ts after (snd c)) cs.
  Proof.
    cbn [late]. f_equal. induction cs as [|[v l] r IH]; [reflexivity|]. cbn [forallb snd]. now rewrite <- IH, lates_fix.
  Qed.

  (** * Replacing all levels *)
  Definition clean (e : vexp) : bool := forallb (fun y => negb (w y)) (dv e).
  Lemma sub_clean N e : clean e = true -> sub w N e = e.
  Proof.
    unfold clean. induction e as [k|x|x|f a IH|f a IHa b IHb]; intros H; cbn [sub dv forallb] in *; try reflexivity.
    - rewrite andb_true_r in H. destruct (w x); [discriminate|reflexivity].
    - now rewrite IH.
    - rewrite forallb_app in H. apply andb_prop in H. destruct H. now rewrite IHa, IHb.
  Qed.
  Lemma clean_sub_leaf N e y : clean (sub w N e) = true -> In y (dv e) -> w y = true -> clean (N y) = true.
  Proof.
    unfold clean. induction e as [k|x|x|f a IH|f a IHa b IHb]; intros H I Wy; cbn [sub dv] in *; try contradiction.
    - destruct I as [<-|[]]. now rewrite Wy in H.
    - auto.
    - cbn [dv] in H. rewrite forallb_app in H. apply andb_prop in H. destruct H. apply in_app_or in I. destruct I; auto.
  Qed.
  Lemma sub_ext N N' e : (forall y, In y (dv e) -> w y = true -> N y = N' y) -> sub w N e = sub w N' e.
  Proof.
    induction e as [k|x|x|f a IH|f a IHa b IHb]; intros H; cbn [sub dv] in *; try reflexivity.
    - destruct (w x) eqn:E; [|reflexivity]. apply H; [now left|exact E].
    - now rewrite IH.
    - rewrite IHa, IHb; [reflexivity| |]; intros y I; apply H, in_or_app; auto.
  Qed.
  Lemma find_w x : w x = true -> exists k, find (named x) ts = Some k.
  Proof.
    unfold isw. rewrite existsb_exists. intros (k & I & E). destruct (find (named x) ts) as [k'|] eqn:F; [eauto|].
    pose proof (find_none _ _ F k I). congruence.
  Qed.
  Lemma inl_stable n x : w x = true -> clean (inl ts n x) = true -> inl ts (S n) x = inl ts n x.
  Proof.
    revert x. induction n as [|n IH]; intros x Wx C.
    - cbn [inl] in C. unfold clean in C. cbn [dv forallb] in C. now rewrite Wx in C.
    - destruct (find_w x Wx) as [k F]. change (inl ts (S (S n)) x) with (match find (named x) ts with Some k => sub w (inl ts (S n)) (wtext ts k) | None => VD x end).
      change (inl ts (S n) x) with (match find (named x) ts with Some k => sub w (inl ts n) (wtext ts k) | None => VD x end) in *.
      rewrite F in *. apply sub_ext. intros y I Wy. apply IH; [exact Wy|]. eapply clean_sub_leaf; eauto.
  Qed.

  Hypothesis FL : flat ts = true.
  Lemma flat_clean x : w x = true -> clean (M x) = true.
  Proof.
    intros Wx. unfold flat in FL. rewrite forallb_forall in FL. unfold isw in Wx. rewrite existsb_exists in Wx. destruct Wx as (k & I & E).
    unfold named in E. apply Nat.eqb_eq in E. subst. now apply FL.
  Qed.
  Lemma meaning_eq x k : find (named x) ts = Some k -> M x = sub w M (wtext ts k).
  Proof.
    intros F. assert (Wx : w x = true).
    { unfold isw. apply existsb_exists. apply find_some in F. destruct F. eauto. }
    unfold meaning. pose proof (inl_stable (length ts) x Wx (flat_clean x Wx)) as H. rewrite <- H at 1.
    change (inl ts (S (length ts)) x) with (match find (named x) ts with Some k => sub w (inl ts (length ts)) (wtext ts k) | None => VD x end). now rewrite F.
  Qed.

  (** A text with wires, its trackers replaced. *)
  Lemma sub_eval Q Q' F e N : (forall y, In y (qv e) -> Q y = Q' y) -> (forall y, In y (dv e) -> w y = true -> F y = veval Q' F (N y)) ->
    veval Q F e = veval Q' F (sub w N e).
  Proof.
    induction e as [k|x|x|f a IH|f a IHa b IHb]; intros H1 H2; cbn [sub dv qv veval] in *; try reflexivity.
    - apply H1. now left.
    - destruct (w x) eqn:E; [|reflexivity]. apply H2; [now left|exact E].
    - now rewrite IH.
    - rewrite IHa, IHb; [reflexivity| | | |]; intros y I; [apply H1|apply H2|apply H1|apply H2]; apply in_or_app; auto.
  Qed.
  Lemma text_qv l e y : In y (qv (text ts l e)) -> w y = false.
  Proof.
    induction e as [k|x|f a IH|f a IHa b IHb]; cbn [text qv]; intros I; try contradiction.
    - destruct (w x) eqn:E; [contradiction|]. destruct l; cbn in I; [|contradiction]. destruct I as [<-|[]]. exact E.
    - auto.
    - apply in_app_or in I. destruct I; auto.
  Qed.
  Lemma wired_off Q W x : w x = false -> wired ts Q W x = Q x.
  Proof. unfold wired. now intros ->. Qed.
  Lemma wired_on Q W x : w x = true -> wired ts Q W x = W x.
  Proof. unfold wired. now intros ->. Qed.

  (** Wires which have the values of their texts have the values of their meanings. *)
  Hypothesis ND : NoDup (map t_var ts).
  Lemma find_self k : In k ts -> find (named (t_var k)) ts = Some k.
  Proof.
    clear FL. revert ND. induction ts as [|h r IH]; intros NN I; [destruct I|]. cbn [map] in NN. inversion NN as [|? ? H1 H2]; subst. cbn [find]. destruct I as [->|I].
    - unfold named. now rewrite Nat.eqb_refl.
    - unfold named at 1. destruct (Nat.eqb_spec (t_var k) (t_var h)) as [E|E].
      + exfalso. apply H1. rewrite <- E. now apply in_map.
      + now apply IH.
  Qed.
  Lemma wires_inl Q F n : (forall k, In k ts -> F (t_var k) = veval Q F (wtext ts k)) ->
    forall x, w x = true -> F x = veval Q F (inl ts n x).
  Proof.
    intros H. induction n as [|n IH]; intros x Wx; [reflexivity|]. cbn [inl]. destruct (find_w x Wx) as [k Fk]. rewrite Fk.
    pose proof (find_some _ _ Fk) as [I E]. unfold named in E. apply Nat.eqb_eq in E. subst. rewrite H by exact I.
    apply sub_eval; [reflexivity|]. intros y _ Wy. now apply IH.
  Qed.

  (** * One execution *)
  Section Exec.
    Variables (Q W F : store).
    Hypothesis WF : forall x, w x = true -> W x = veval Q F (M x).

    Definition near (S I : store) : Prop := forall x, I x = if w x then W x else S x.
    Definition ends (after : list var) (S I : store) : Prop :=
      (forall x, w x = false -> ~ In x after -> F x = S x) \/ (forall x, w x = false -> ~ In x after -> F x = I x).
    Definition match2 (s i : store * nat) : Prop := near (fst s) (fst i) /\ snd s = snd i.

    Lemma meaning_dv x y : w x = true -> In y (dv (M x)) -> w y = false.
    Proof.
      intros Wx I. pose proof (flat_clean x Wx) as C. unfold clean in C. rewrite forallb_forall in C. apply negb_true_iff. now apply C.
    Qed.
    Lemma calm_eval after e S I : calm ts after e = true -> near S I -> ends after S I -> veval (wired ts Q W) I e = veval Q S (sub w M e).
    Proof.
      unfold calm. intros C N EN. apply andb_prop in C. destruct C as [C1 C2]. rewrite forallb_forall in C1, C2.
      assert (FS : forall x, w x = false -> ~ In x after -> F x = S x).
      { intros x Wx Na. destruct EN as [EN|EN]; rewrite EN by assumption; [reflexivity|]. rewrite N. now rewrite Wx. }
      clear EN. revert C1 C2. induction e as [k|x|x|f a IH|f a IHa b IHb]; intros C1 C2; cbn [sub dv qv veval] in *; try reflexivity.
      - apply wired_off. apply negb_true_iff. apply C2. now left.
      - specialize (C1 x (or_introl eq_refl)). rewrite N. destruct (w x) eqn:Wx; [|reflexivity].
        rewrite WF by exact Wx. apply dv_eval. intros y Iy. rewrite forallb_forall in C1. specialize (C1 y Iy). apply negb_true_iff, memb_false in C1.
        apply FS; [eapply meaning_dv; eauto|exact C1].
      - now rewrite IH.
      - rewrite IHa, IHb; [reflexivity| | | |]; intros y Iy; [apply C1|apply C2|apply C1|apply C2]; apply in_or_app; auto.
    Qed.

    Definition off (l : list var) : Prop := forall x, In x l -> w x = false.
    Definition good1 (c : vst) : Prop := forall after s i, off (asg c) -> late ts after c = true -> match2 s i ->
      ends after (fst (vexecs Q (put w M c) s)) (fst (vexec (wired ts Q W) c i)) ->
      match2 (vexecs Q (put w M c) s) (vexec (wired ts Q W) c i).

    Lemma asg_put_sub : forall c x, In x (asgs (put w M c)) -> In x (asg c).
    Proof.
      assert (L : forall l, Forall (fun c => forall x, In x (asgs (put w M c)) -> In x (asg c)) l -> forall x, In x (asgs (puts w M l)) -> In x (asgs l)).
      { induction 1 as [|c r H _ IH]; intros x I; [exact I|]. cbn [puts] in I. unfold asgs in I. rewrite map_app, concat_app in I. fold (asgs (put w M c)) in I.
        fold (asgs (puts w M r)) in I. rewrite asgs_cons. apply in_app_or in I. apply in_or_app. destruct I; auto. }
      induction c as [x e|n|e a b Ha Hb|e cs Hcs] using vst_ind'; intros y I.
      - cbn [put] in I. destruct (w x); [destruct I|]. exact I.
      - exact I.
      - rewrite put_if in I. unfold asgs in I. cbn [map concat] in I. rewrite app_nil_r, asg_if in I. rewrite asg_if. apply in_app_or in I. apply in_or_app.
        destruct I; [left|right]; eapply L; eauto.
      - rewrite put_case in I. unfold asgs in I. cbn [map concat] in I. rewrite app_nil_r, asg_case in I. rewrite asg_case.
        apply in_concat in I. destruct I as (z & Iz & J). apply in_map_iff in Iz. destruct Iz as (c1 & <- & Ic). apply in_map_iff in Ic. destruct Ic as (c2 & <- & Ic).
        cbn [snd] in J. rewrite Forall_forall in Hcs. apply in_concat. exists (asgs (snd c2)). split; [apply in_map_iff; eauto|]. eapply L; [exact (Hcs _ Ic)|exact J].
    Qed.
    Lemma asgs_puts_sub l x : In x (asgs (puts w M l)) -> In x (asgs l).
    Proof.
      induction l as [|c r IH]; intros I; [exact I|]. cbn [puts] in I. unfold asgs in I. rewrite map_app, concat_app in I. fold (asgs (put w M c)) in I.
      fold (asgs (puts w M r)) in I. rewrite asgs_cons. apply in_app_or in I. apply in_or_app. destruct I as [I|I]; [left; now apply asg_put_sub|right; auto].
    Qed.

    Lemma ends_shift after l S I S' I' : ends after S' I' -> (forall x, ~ In x l -> S' x = S x) -> (forall x, ~ In x l -> I' x = I x) -> ends (l ++ after) S I.
    Proof.
      intros [H|H] A B; [left|right]; intros x Wx N.
      - rewrite H; [apply A|exact Wx|]; intros J; apply N, in_or_app; auto.
      - rewrite H; [apply B|exact Wx|]; intros J; apply N, in_or_app; auto.
    Qed.
    Lemma ends_mono after after' S I : ends after S I -> (forall x, In x after -> In x after') -> ends after' S I.
    Proof. intros [H|H] A; [left|right]; intros x Wx N; apply H; auto. Qed.

    Lemma good_list l : Forall good1 l -> forall after s i, off (asgs l) -> lates ts after l = true -> match2 s i ->
      ends after (fst (vexecs Q (puts w M l) s)) (fst (vexecs (wired ts Q W) l i)) ->
      match2 (vexecs Q (puts w M l) s) (vexecs (wired ts Q W) l i).
    Proof.
      induction 1 as [|c r H _ IH]; intros after s i OF L MM EN; [exact MM|]. cbn [puts vexecs lates] in *. rewrite vexecs_app in *.
      apply andb_prop in L. destruct L as [L1 L2]. rewrite asgs_cons in OF.
      assert (M1 : match2 (vexecs Q (put w M c) s) (vexec (wired ts Q W) c i)).
      { apply (H (asgs r ++ after)); auto.
        - intros x I. apply OF, in_or_app. auto.
        - eapply ends_shift; [exact EN| |].
          + intros x N. apply frame. intros I. apply N. now apply asgs_puts_sub.
          + intros x N. now apply frame. }
      eapply IH; eauto. intros x I. apply OF, in_or_app. auto.
    Qed.

    Lemma one c : good1 c.
    Proof.
      induction c as [x e|n|e a b Ha Hb|e cs Hcs] using vst_ind'; intros after s i OF L [NR IX] EN.
      - cbn [put] in *. assert (Wx : w x = false) by (apply OF; now left). rewrite Wx in *. cbn [vexecs vexec late fst snd] in *.
        split; [|exact IX]. cbn [fst]. intros y. unfold upd. destruct (Nat.eqb_spec y x) as [->|N].
        + rewrite Wx. apply (calm_eval (x :: after)); auto.
          assert (EN' : ends ([x] ++ after) (fst s) (fst i)); [|exact EN']. eapply ends_shift; [exact EN| |]; intros z Nz; unfold upd; destruct (Nat.eqb_spec z x); auto; subst; exfalso; apply Nz; now left.
        + apply NR.
      - cbn [put vexecs vexec]. split; [exact NR|reflexivity].
      - rewrite put_if in *. cbn [vexecs] in *. rewrite !vexec_if in *. rewrite late_if in L. rewrite asg_if in OF.
        apply andb_prop in L. destruct L as [L1 L2]. apply andb_prop in L2. destruct L2 as [L2 L3].
        assert (EV : veval (wired ts Q W) (fst i) e = veval Q (fst s) (sub w M e)).
        { apply (calm_eval (asgs a ++ asgs b ++ after)); auto. rewrite app_assoc. eapply ends_shift; [exact EN| |].
          - intros x N. match goal with |- context [if ?b then _ else _] => destruct b end; apply frame; intros I; apply N, in_or_app; [left|right]; now apply asgs_puts_sub.
          - intros x N. match goal with |- context [if ?b then _ else _] => destruct b end; apply frame; intros I; apply N, in_or_app; auto. }
        rewrite EV in *. destruct (truth _).
        + apply (good_list a Ha after); auto; [intros x I; apply OF, in_or_app; auto|now split].
        + apply (good_list b Hb after); auto; [intros x I; apply OF, in_or_app; auto|now split].
      - rewrite put_case in *. cbn [vexecs] in *. rewrite !vexec_case in *. rewrite late_case in L. rewrite asg_case in OF.
        rewrite pick_put in *. apply andb_prop in L. destruct L as [L1 L2]. rewrite forallb_forall in L2. rewrite Forall_forall in Hcs.
        assert (EV : veval (wired ts Q W) (fst i) e = veval Q (fst s) (sub w M e)).
        { apply (calm_eval (concat (map (fun c => asgs (snd c)) cs) ++ after)); auto. eapply ends_shift; [exact EN| |].
          - intros x N. match goal with |- context [pick ?v cs] => destruct (pick v cs) as [l|] eqn:P end; [|reflexivity]. apply pick_in in P. destruct P as [v P]. apply frame. intros I. apply N.
            apply in_concat. exists (asgs l). split; [apply in_map_iff; exists (v, l); auto|now apply asgs_puts_sub].
          - intros x N. match goal with |- context [pick ?v cs] => destruct (pick v cs) as [l|] eqn:P end; [|reflexivity]. apply pick_in in P. destruct P as [v P]. apply frame. intros I. apply N.
            apply in_concat. exists (asgs l). split; [apply in_map_iff; exists (v, l); auto|exact I]. }
        rewrite EV in *. destruct (pick _ cs) as [l|] eqn:P; [|now split].
        apply pick_in in P. destruct P as [v P]. apply (good_list l (Hcs _ P) after); auto.
        + intros x I. apply OF. apply in_concat. exists (asgs l). split; [apply in_map_iff; exists (v, l); auto|exact I].
        + apply (L2 _ P).
        + now split.
    Qed.
    Lemma many l after s i : off (asgs l) -> lates ts after l = true -> match2 s i ->
      ends after (fst (vexecs Q (puts w M l) s)) (fst (vexecs (wired ts Q W) l i)) ->
      match2 (vexecs Q (puts w M l) s) (vexecs (wired ts Q W) l i).
    Proof. apply good_list. apply Forall_forall. intros c _. apply one. Qed.

    (** * One cycle *)
    Variable o : kout.
    Hypothesis UN : unassigned ts o = true.
    Hypothesis LT : late_out ts o = true.

    Lemma un_off : off (asgs (o_pre o)) /\ (forall a, In a (o_arms o) -> off (asgs (snd a))) /\ off (asgs (o_post o)).
    Proof.
      unfold unassigned in UN. rewrite forallb_forall in UN.
      assert (A : off (asgs (o_pre o) ++ concat (map (fun a => asgs (snd a)) (o_arms o)) ++ asgs (o_post o))) by (intros x I; apply negb_true_iff; now apply UN).
      split; [intros x I; apply A, in_or_app; auto|]. split; [|intros x I; apply A, in_or_app; right; apply in_or_app; auto].
      intros a Ia x I. apply A, in_or_app. right. apply in_or_app. left. apply in_concat. exists (asgs (snd a)). split; [apply in_map_iff; eauto|exact I].
    Qed.
    Lemma arm_in k l c : arm_of k l = Some c -> In (k, c) l.
    Proof. induction l as [|[j d] r IH]; cbn [arm_of]; [discriminate|]. destruct (Nat.eqb_spec j k) as [E|]; intros H; [injection H as <-; left; now rewrite E|right; auto]. Qed.
    Lemma arm_put k l : arm_of k (map (fun a => (fst a, puts w M (snd a))) l) = option_map (puts w M) (arm_of k l).
    Proof. induction l as [|[j d] r IH]; [reflexivity|]. cbn [map arm_of fst snd]. destruct (Nat.eqb j k); [reflexivity|exact IH]. Qed.

    (** The middle of a cycle. *)
    Definition mid (o : kout) (P : store) (idx : nat) (s : store * nat) : option (store * nat) :=
      match o_arms o with
      | [] => Some s
      | arms => if Nat.eqb idx 0 then Some s else do c <- arm_of idx arms; Some (vexecs P c s)
      end.
    Lemma kcycle_mid o' P D idx : kcycle o' P D idx = do s <- mid o' P idx (vexecs P (o_pre o') (D, idx)); Some (vexecs P (o_post o') s).
    Proof.
      unfold kcycle, mid. destruct (vexecs P (o_pre o') (D, idx)) as [D1 i1]. destruct (o_arms o') as [|a r]; [reflexivity|].
      destruct (Nat.eqb idx 0); [reflexivity|]. destruct (arm_of idx (a :: r)); [|reflexivity]. cbn [obind]. now destruct (vexecs P l (D1, i1)).
    Qed.
    Lemma mid_cases idx : (forall P s, mid o P idx s = None) /\ (forall P s, mid (put_out w M o) P idx s = None) \/
      exists l, (l = [] \/ exists k, In (k, l) (o_arms o)) /\ (forall P s, mid o P idx s = Some (vexecs P l s)) /\ (forall P s, mid (put_out w M o) P idx s = Some (vexecs P (puts w M l) s)).
    Proof.
      unfold mid, put_out. cbn [o_arms]. destruct (o_arms o) as [|a r] eqn:E; [right; exists []; cbn; auto|].
      change (map (fun a0 : nat * list vst => (fst a0, puts w M (snd a0))) (a :: r)) with ((fst a, puts w M (snd a)) :: map (fun a0 : nat * list vst => (fst a0, puts w M (snd a0))) r).
      destruct (Nat.eqb idx 0); [right; exists []; cbn; auto|].
      change ((fst a, puts w M (snd a)) :: map (fun a0 : nat * list vst => (fst a0, puts w M (snd a0))) r) with (map (fun a0 : nat * list vst => (fst a0, puts w M (snd a0))) (a :: r)).
      rewrite arm_put. destruct (arm_of idx (a :: r)) as [c|] eqn:A; [|left; auto]. right. exists c. split; [right; exists idx; now apply arm_in|]. cbn [option_map obind]. auto.
    Qed.

    Lemma cycle_sim D0 idx :
      match kcycle (put_out w M o) Q D0 idx, kcycle o (wired ts Q W) (wired ts D0 W) idx with
      | None, None => True
      | Some s, Some i => ends [] (fst s) (fst i) -> match2 s i
      | _, _ => False
      end.
    Proof.
      rewrite !kcycle_mid. destruct (mid_cases idx) as [[A B]|(l & IL & A & B)]; rewrite A, B; cbn [obind]; [exact I|].
      unfold put_out. cbn [o_pre o_post]. intros EN. destruct un_off as (U1 & U2 & U3). unfold late_out in LT.
      apply andb_prop in LT. destruct LT as [LT' L3]. apply andb_prop in LT'. destruct LT' as [L1 L2]. rewrite forallb_forall in L2.
      assert (OL : off (asgs l)) by (destruct IL as [-> |[k IL]]; [intros x []|apply (U2 _ IL)]).
      assert (LL : lates ts (asgs (o_post o)) l = true) by (destruct IL as [-> |[k IL]]; [reflexivity|apply (L2 _ IL)]).
      assert (SL : forall x, In x (asgs l) -> In x (concat (map (fun a => asgs (snd a)) (o_arms o)))).
      { intros x I. destruct IL as [-> |[k IL]]; [destruct I|]. apply in_concat. exists (asgs l). split; [apply in_map_iff; exists (k, l); auto|exact I]. }
      assert (M0 : match2 (D0, idx) (wired ts D0 W, idx)) by (split; [intros x; reflexivity|reflexivity]).
      assert (E2 : ends (asgs (o_post o)) (fst (vexecs Q (puts w M l) (vexecs Q (puts w M (o_pre o)) (D0, idx))))
                    (fst (vexecs (wired ts Q W) l (vexecs (wired ts Q W) (o_pre o) (wired ts D0 W, idx))))).
      { rewrite <- (app_nil_r (asgs (o_post o))). eapply ends_shift; [exact EN| |]; intros x N; apply frame; intros J; apply N; [now apply asgs_puts_sub|exact J]. }
      assert (E1 : ends (concat (map (fun a => asgs (snd a)) (o_arms o)) ++ asgs (o_post o)) (fst (vexecs Q (puts w M (o_pre o)) (D0, idx)))
                    (fst (vexecs (wired ts Q W) (o_pre o) (wired ts D0 W, idx)))).
      { eapply ends_mono; [eapply (ends_shift _ (asgs l)); [exact E2| |]|].
        - intros x N. apply frame. intros J. apply N. now apply asgs_puts_sub.
        - intros x N. now apply frame.
        - intros x J. apply in_app_or in J. apply in_or_app. destruct J; auto. }
      pose proof (many (o_pre o) _ _ _ U1 L1 M0 E1) as M1. pose proof (many l _ _ _ OL LL M1 E2) as M2.
      exact (many (o_post o) [] _ _ U3 L3 M2 EN).
    Qed.
    Lemma wired_kept D0 idx E i x : kcycle o (wired ts Q W) (wired ts D0 W) idx = Some (E, i) -> w x = true -> E x = W x.
    Proof.
      rewrite kcycle_mid. destruct (mid_cases idx) as [[A B]|(l & IL & A & B)]; rewrite A; cbn [obind]; [discriminate|]. intros [= H] Wx.
      destruct un_off as (U1 & U2 & U3).
      assert (OL : off (asgs l)) by (destruct IL as [-> |[k IL]]; [intros y []|apply (U2 _ IL)]).
      change E with (fst (E, i)). rewrite <- H. rewrite !frame; [cbn [fst]; now apply wired_on| | |]; intros J.
      - apply U1 in J. congruence.
      - apply OL in J. congruence.
      - apply U3 in J. congruence.
    Qed.
  End Exec.

  (** * Settled states *)
  Lemma settled_meaning o Q D0 W idx E i : unassigned ts o = true -> settled ts o Q D0 W idx E i ->
    forall x, w x = true -> W x = veval Q E (M x).
  Proof.
    intros UN [H1 H2] x Wx.
    assert (K : forall y, w y = true -> E y = W y) by (intros y Wy; eapply wired_kept; eauto).
    rewrite <- K by exact Wx. unfold meaning. apply (wires_inl Q E); [|exact Wx]. intros k Ik. rewrite K.
    - rewrite H2 by exact Ik.
      assert (G : forall e, (forall y, In y (qv e) -> w y = false) -> veval (wired ts Q W) E e = veval Q E e).
      { induction e as [n|y|y|f a IH|f a IHa b IHb]; intros G; cbn [veval qv] in *; try reflexivity.
        - apply wired_off, G. now left.
        - now rewrite IH.
        - rewrite IHa, IHb; [reflexivity| |]; intros y I; apply G, in_or_app; auto. }
      apply G. intros y. apply text_qv.
    - unfold isw. apply existsb_exists. exists k. split; [exact Ik|apply Nat.eqb_refl].
  Qed.

  Theorem immediate o : unassigned ts o = true -> late_out ts o = true -> forall Q D0 idx,
    match kcycle (put_out w M o) Q D0 idx with
    | None => forall W, kcycle o (wired ts Q W) (wired ts D0 W) idx = None
    | Some (E, i) =>
        (exists W E', settled ts o Q D0 W idx E' i) /\
        forall W E' i', settled ts o Q D0 W idx E' i' ->
          i' = i /\ (forall x, w x = false -> E' x = E x) /\ forall x, w x = true -> W x = veval Q E (M x)
    end.
  Proof.
    intros UN LT Q D0 idx. destruct (kcycle (put_out w M o) Q D0 idx) as [[E i]|] eqn:K.
    - split.
      + set (W := fun x => veval Q E (M x)). pose proof (cycle_sim Q W E (fun x _ => eq_refl) o UN LT D0 idx) as S. rewrite K in S.
        destruct (kcycle o (wired ts Q W) (wired ts D0 W) idx) as [[E' i']|] eqn:K'; [|contradiction].
        destruct S as [N IX]; [left; reflexivity|]. cbn [fst snd] in *. exists W, E'. subst i'. split; [exact K'|]. intros k Ik.
        assert (Wk : w (t_var k) = true) by (unfold isw; apply existsb_exists; exists k; split; [exact Ik|apply Nat.eqb_refl]).
        assert (WE : forall x, w x = true -> W x = veval Q E' (M x)).
        { intros x Wx. unfold W. apply dv_eval. intros y Iy. rewrite N. now rewrite (meaning_dv x y Wx Iy). }
        rewrite WE by exact Wk. rewrite (meaning_eq _ k (find_self k Ik)). symmetry. apply sub_eval.
        * intros y Iy. apply wired_off. eapply text_qv. exact Iy.
        * intros y Iy Wy. rewrite N, Wy. now apply WE.
      + intros W E' i' ST. pose proof (settled_meaning o Q D0 W idx E' i' UN ST) as WE. destruct ST as [K' _].
        pose proof (cycle_sim Q W E' WE o UN LT D0 idx) as S. rewrite K, K' in S. destruct S as [N IX]; [right; reflexivity|]. cbn [fst snd] in *.
        split; [congruence|]. split.
        * intros x Wx. rewrite N. now rewrite Wx.
        * intros x Wx. rewrite WE by exact Wx. apply dv_eval. intros y Iy. rewrite N. now rewrite (meaning_dv x y Wx Iy).
    - intros W. rewrite kcycle_mid in *. destruct (mid_cases o idx) as [[A B]|(l & IL & A & B)]; rewrite ?A, ?B in *; [reflexivity|discriminate].
  Qed.
End Trackers.
