(** Accepted trackers have exactly one value. *)
From Coq Require Import List Bool Arith ZArith Lia.
Import ListNotations.
From Verif Require Import FsmModel FsmRun FsmEmit FsmArms UseModel UseProofs DefineModel DefineProofs DefineSim DefineCycle TrackModel TrackProofs TrackDeps.
From Verif Require DepModel DepProofs.
Notation present := DepModel.present.
Notation dep := DepModel.dep.
Notation written := DepModel.written.

Section Settle.
  Variable ts : list trk.
  Variable n : nat.
  Notation w := (isw ts).
  Hypothesis ND : NoDup (map t_var ts).
  Definition small (e : expr) : Prop := forall y, In y (evars e) -> y < n.
  Hypothesis RT : forall k, In k ts -> t_var k < n /\ small (t_exp k).

  (** No tracker depends on itself. *)
  Definition J (d : DepModel.deps) : Prop := G n d /\ forall t, w t = true -> present (dep d t t) = false.

  Lemma wupdate_J d rs x d1 : wupdate ts n d {| DepModel.i_read := rs; DepModel.i_written := [x] |} = Some d1 -> J d -> (forall r, In r rs -> r < n) -> x < n ->
    J d1 /\ (forall y, written d1 y = written d y || Nat.eqb y x) /\
    (forall y r, y <> x -> present (dep d y r) = true -> present (dep d1 y r) = true) /\
    (forall r, In r rs -> present (dep d1 x r) = true) /\ (In x rs -> written d x = true -> False).
  Proof.
    unfold wupdate. intros H [GD JD] RR Lx. destruct (DepModel.update n d {| DepModel.i_read := rs; DepModel.i_written := [x] |}) as [d1'|] eqn:U; [|discriminate].
    cbn [DepModel.i_written existsb] in H. rewrite orb_false_r in H. destruct (wloop ts n d1' x) eqn:WL; [discriminate|]. cbn [orb] in H.
    destruct (tracked_before ts n d1' x); [discriminate|]. injection H as ->.
    destruct (update_G _ _ _ _ _ U GD RR Lx) as (G1 & W1 & M1 & R1 & S1 & K1).
    assert (NL : forall t, w t = true -> present (dep d1 x t) = true -> written d1 t = true -> present (dep d1 t x) = true -> False).
    { intros t Wt P Wr P'. unfold wloop in WL. apply not_true_iff_false in WL. apply WL. apply existsb_exists. exists t. split.
      - apply in_seq. pose proof G1 as (_ & _ & RW & _). specialize (RW _ Wr). lia.
      - now rewrite P, Wr, Wt, P'. }
    split; [|auto]. split; [exact G1|]. intros t Wt. apply not_true_iff_false. intros P.
    assert (Wr : written d1 t = true) by (destruct G1 as (_ & O & _); eapply O; eauto).
    destruct (Nat.eq_dec t x) as [->|N]; [eapply NL; eauto|].
    destruct (K1 t t N P) as [P'|[P1 P2]]; [rewrite JD in P' by exact Wt; discriminate|]. destruct P2 as [->|P2]; [congruence|]. eapply NL; eauto.
  Qed.

  (** * After the wires *)
  Definition quick (k : trk) : Prop := In k ts /\ t_late k = false.
  Definition rows (d : DepModel.deps) : Prop := forall k, quick k -> written d (t_var k) = true /\ forall y, In y (evars (t_exp k)) -> present (dep d (t_var k) y) = true.

  Lemma wires_ok ks : forall pre d d', ts = pre ++ ks -> wires_deps ts n ks d = Some d' -> J d ->
    (forall y, written d y = true -> exists k, In k pre /\ t_late k = false /\ t_var k = y) ->
    (forall k, In k pre -> t_late k = false -> written d (t_var k) = true /\ forall y, In y (evars (t_exp k)) -> present (dep d (t_var k) y) = true) ->
    J d' /\ rows d' /\ (forall y, written d' y = true -> exists k, quick k /\ t_var k = y).
  Proof.
    induction ks as [|k ks IH]; intros pre d d' ET H JD WD RD; cbn [wires_deps] in H.
    - injection H as <-. rewrite app_nil_r in ET. subst pre. split; [exact JD|]. split.
      + intros k [I L]. now apply RD.
      + intros y Hy. destruct (WD y Hy) as (k & I & L & E). exists k. now split.
    - destruct (wupdate _ _ _ _) as [d1|] eqn:U; [|discriminate].
      assert (Ik : In k ts) by (rewrite ET; apply in_or_app; right; now left).
      destruct (RT k Ik) as [Lk Sk]. destruct (wupdate_J _ _ _ _ U JD Sk Lk) as (J1 & W1 & M1 & R1 & _).
      assert (ET' : ts = (pre ++ [k]) ++ ks) by (rewrite <- app_assoc; exact ET).
      assert (NV : forall k', In k' pre -> t_var k' <> t_var k).
      { intros k' I' E. rewrite ET, map_app in ND. cbn [map] in ND. apply NoDup_remove_2 in ND. apply ND. apply in_or_app. left. rewrite <- E. now apply in_map. }
      eapply IH; [exact ET'|exact H| | |].
      + now destruct (t_late k).
      + intros y Hy. destruct (t_late k) eqn:L.
        * destruct (WD y Hy) as (k' & I' & L' & E'). exists k'. split; [apply in_or_app; now left|auto].
        * rewrite W1 in Hy. apply orb_prop in Hy. destruct Hy as [Hy|Hy].
          -- destruct (WD y Hy) as (k' & I' & L' & E'). exists k'. split; [apply in_or_app; now left|auto].
          -- apply Nat.eqb_eq in Hy. exists k. split; [apply in_or_app; right; now left|auto].
      + intros k' I' L'. apply in_app_or in I'. destruct I' as [I'|[<-|[]]].
        * destruct (RD k' I' L') as [A B]. destruct (t_late k); [split; [exact A|exact B]|]. split; [rewrite W1, A; reflexivity|].
          intros y Iy. apply M1; auto.
        * rewrite L'. split; [rewrite W1, Nat.eqb_refl; apply orb_true_r|]. exact R1.
  Qed.

  (** * The body *)
  Fixpoint code (b : list (var * expr)) (deps : list var) : list vst :=
    match b with [] => [] | (x, e) :: r => VSet x (krw w deps e) :: code r (x :: deps) end.
  Lemma code_eq b : forall deps u, fst (anals w (map (fun a => KSet (fst a) (snd a)) b) (deps, u)) = code b deps.
  Proof.
    induction b as [|[x e] r IH]; intros deps u; [reflexivity|]. cbn [map anals anal fst snd code].
    specialize (IH (x :: deps) (kread w deps e (kwrite x u))).
    destruct (anals w (map (fun a => KSet (fst a) (snd a)) r) (x :: deps, kread w deps e (kwrite x u))) as [c2 s2]. cbn [fst] in *. now rewrite <- IH.
  Qed.
  Lemma circuit_cycle b P D idx : kcycle (circuit ts b) P D idx = Some (vexecs P (code b []) (D, idx)).
  Proof.
    unfold circuit, module_use, kcycle. cbn [k_pre k_states k_post always_of map]. rewrite <- (code_eq b [] (u_start (always_of b))).
    destruct (anals w (map (fun a => KSet (fst a) (snd a)) b) ([], u_start (always_of b))) as [c s]. cbn [fst snd concat map anals o_pre o_arms o_post vexecs].
    now destruct (vexecs P c (D, idx)).
  Qed.

  (** * Two assignments of values to the wires *)
  Section Two.
    Variables (Q W1 W2 : store).
    (** Values of the same <:: trackers. *)
    Hypothesis LT : forall k, In k ts -> t_late k = true -> W1 (t_var k) = W2 (t_var k).
    (** [x] sees the same <: trackers. *)
    Definition sees (d : DepModel.deps) (x : var) : Prop := forall k, quick k -> present (dep d x (t_var k)) = true -> W1 (t_var k) = W2 (t_var k).

    Definition inv (d : DepModel.deps) (deps : list var) (D1 D2 : store) : Prop :=
      J d /\ rows d /\ (forall x, w x = false -> written d x = memb x deps) /\
      (forall x, w x = true -> D1 x = W1 x /\ D2 x = W2 x) /\
      (forall x, w x = false -> memb x deps = false -> D1 x = Q x /\ D2 x = Q x) /\
      (forall x, w x = false -> memb x deps = true -> sees d x -> D1 x = D2 x).

    Lemma wire_kind x : w x = true -> exists k, In k ts /\ t_var k = x.
    Proof. unfold isw. rewrite existsb_exists. intros (k & I & E). apply Nat.eqb_eq in E. eauto. Qed.

    (** An expression whose variables are in the row of [x]. *)
    Lemma same_text d deps D1 D2 e : inv d deps D1 D2 -> (forall y, In y (evars e) -> w y = true -> W1 y = W2 y) ->
      (forall y, In y (evars e) -> w y = false -> memb y deps = true -> sees d y) ->
      veval (wired ts Q W1) D1 (krw w deps e) = veval (wired ts Q W2) D2 (krw w deps e).
    Proof.
      intros (_ & _ & _ & A & B & C) H1 H2. induction e as [k|y|f a IH|f a IHa b IHb]; cbn [krw evars veval] in *; try reflexivity.
      - specialize (H1 y (or_introl eq_refl)). specialize (H2 y (or_introl eq_refl)). destruct (w y) eqn:Wy; cbn [orb veval].
        + destruct (A y Wy) as [-> ->]. auto.
        + destruct (memb y deps) eqn:My; cbn [veval]; [now apply C; auto|]. unfold wired. now rewrite Wy.
      - now rewrite IH.
      - rewrite IHa, IHb; [reflexivity| | | |]; intros y Iy; [apply H1|apply H2|apply H1|apply H2]; apply in_or_app; auto.
    Qed.

    Lemma body_step d deps D1 D2 x e d1 : inv d deps D1 D2 -> w x = false -> x < n -> small e ->
      wupdate ts n d {| DepModel.i_read := evars e; DepModel.i_written := [x] |} = Some d1 ->
      inv d1 (x :: deps) (upd D1 x (veval (wired ts Q W1) D1 (krw w deps e))) (upd D2 x (veval (wired ts Q W2) D2 (krw w deps e))).
    Proof.
      intros I Wx Lx Se U. pose proof I as (JD & RD & WD & A & B & C).
      destruct (wupdate_J _ _ _ _ U JD Se Lx) as (J1 & WR & M1 & R1 & S1).
      assert (NX : forall k, quick k -> t_var k <> x).
      { intros k [Ik _] E. subst x. unfold isw in Wx. apply not_true_iff_false in Wx. apply Wx. apply existsb_exists. exists k. split; [exact Ik|apply Nat.eqb_refl]. }
      split; [exact J1|]. split.
      { intros k Qk. destruct (RD k Qk) as [X Y]. split; [rewrite WR, X; reflexivity|]. intros y Iy. apply M1; auto. }
      split.
      { intros y Wy. rewrite WR, WD by exact Wy. rewrite memb_cons. apply orb_comm. }
      split.
      { intros y Wy. unfold upd. destruct (Nat.eqb_spec y x); [congruence|]. auto. }
      split.
      { intros y Wy My. rewrite memb_cons in My. apply orb_false_iff in My. destruct My as [N My]. unfold upd. rewrite N. auto. }
      intros y Wy My SE. unfold upd. rewrite memb_cons in My. destruct (Nat.eqb_spec y x) as [->|N].
      - apply (same_text d deps D1 D2 e I).
        + intros z Iz Wz. destruct (wire_kind z Wz) as (k & Ik & <-). destruct (t_late k) eqn:L; [now apply LT|]. apply SE; [now split|]. now apply R1.
        + intros z Iz Wz Mz k Qk P. apply SE; [exact Qk|].
          assert (Nz : z <> x) by (intros ->; apply S1; [exact Iz|now rewrite WD]).
          destruct J1 as [(_ & _ & _ & CL) _]. apply (CL x z); [now apply R1|rewrite WR, WD, Mz by exact Wz; reflexivity|now apply M1].
      - cbn [orb] in My. apply C; auto. intros k Qk P. apply SE; [exact Qk|]. now apply M1.
    Qed.

    Lemma body_inv b : forall d deps D1 D2 d' i, inv d deps D1 D2 -> body_deps ts n b d = Some d' -> (forall a, In a b -> fst a < n /\ small (snd a)) ->
      exists deps', inv d' deps' (fst (vexecs (wired ts Q W1) (code b deps) (D1, i))) (fst (vexecs (wired ts Q W2) (code b deps) (D2, i))).
    Proof.
      induction b as [|[x e] r IH]; intros d deps D1 D2 d' i I H R; cbn [body_deps code vexecs] in *.
      - injection H as <-. exists deps. exact I.
      - destruct (w x) eqn:Wx; [discriminate|]. destruct (wupdate _ _ _ _) as [d1|] eqn:U; [|discriminate].
        destruct (R (x, e) (or_introl eq_refl)) as [Lx Se]. cbn [fst snd] in *. cbn [vexec fst snd]. eapply IH; [|exact H|intros a Ia; apply R; now right].
        eapply body_step; eauto.
    Qed.

    Lemma body_two b d d' i : J d -> rows d -> (forall y, written d y = true -> exists k, quick k /\ t_var k = y) -> body_deps ts n b d = Some d' ->
      (forall a, In a b -> fst a < n /\ small (snd a)) ->
      exists deps', inv d' deps' (fst (vexecs (wired ts Q W1) (code b []) (wired ts Q W1, i))) (fst (vexecs (wired ts Q W2) (code b []) (wired ts Q W2, i))).
    Proof.
      intros JD RD WD H R. eapply body_inv; [|exact H|exact R]. split; [exact JD|]. split; [exact RD|]. split.
      { intros x Wx. cbn. apply not_true_iff_false. intros P. destruct (WD x P) as (k & [Ik _] & <-). unfold isw in Wx. apply not_true_iff_false in Wx. apply Wx.
        apply existsb_exists. exists k. split; [exact Ik|apply Nat.eqb_refl]. }
      split; [intros x Wx; unfold wired; rewrite Wx; auto|]. split; [intros x Wx _; unfold wired; rewrite Wx; auto|]. intros x _ M. discriminate.
    Qed.

    (** The text of a <: tracker at the end. *)
    Lemma text_two d deps D1 D2 k : inv d deps D1 D2 -> quick k -> sees d (t_var k) -> veval (wired ts Q W1) D1 (wtext ts k) = veval (wired ts Q W2) D2 (wtext ts k).
    Proof.
      intros (JD & RD & WD & A & B & C) Qk SE. unfold wtext. destruct Qk as [Ik Lk]. rewrite Lk. destruct (RD k (conj Ik Lk)) as [_ RK].
      assert (HH : forall y, In y (evars (t_exp k)) -> D1 y = D2 y).
      { intros y Iy. specialize (RK y Iy). destruct (w y) eqn:Wy.
        - destruct (A y Wy) as [-> ->]. destruct (wire_kind y Wy) as (k' & Ik' & <-). destruct (t_late k') eqn:L; [now apply LT|]. apply SE; [now split|exact RK].
        - destruct (memb y deps) eqn:My; [|destruct (B y Wy My) as [-> ->]; reflexivity]. apply C; auto. intros k' Qk' P. apply SE; [exact Qk'|].
          destruct JD as [(_ & _ & _ & CL) _]. apply (CL (t_var k) y); [exact RK|rewrite WD; assumption|exact P]. }
      revert HH. generalize (t_exp k). induction e as [c|y|f a IH|f a IHa b IHb]; intros HH; cbn [text veval evars] in *; try reflexivity.
      - destruct (w y); cbn [veval]; apply HH; now left.
      - now rewrite IH.
      - rewrite IHa, IHb; [reflexivity| |]; intros y Iy; apply HH, in_or_app; auto.
    Qed.
  End Two.

  (** * The only solution *)
  Variable b : list (var * expr).
  Hypothesis RB : forall a, In a b -> fst a < n /\ small (snd a).
  (** <:: trackers read variables, not other trackers. *)
  Hypothesis TAME : forall k y, In k ts -> t_late k = true -> In y (evars (t_exp k)) -> w y = false.
  Hypothesis ACC : accepted ts n b = true.

  Definition final (Q W : store) (i : nat) : store := fst (vexecs (wired ts Q W) (code b []) (wired ts Q W, i)).
  Definition nextw (Q : store) (i : nat) (W : store) : store :=
    fun x => match find (named x) ts with Some k => veval (wired ts Q W) (final Q W i) (wtext ts k) | None => 0%Z end.

  Lemma nextw_at Q i W k : In k ts -> nextw Q i W (t_var k) = veval (wired ts Q W) (final Q W i) (wtext ts k).
  Proof. intros I. unfold nextw. now rewrite (find_self ts ND k I). Qed.
  Lemma late_const Q D D' W W' k : In k ts -> t_late k = true -> veval (wired ts Q W) D (wtext ts k) = veval (wired ts Q W') D' (wtext ts k).
  Proof.
    intros I L. unfold wtext. rewrite L. pose proof (TAME k) as T. revert T. generalize (t_exp k). induction e as [c|y|f a IH|f a IHa c IHc]; intros T; cbn [text veval evars] in *; try reflexivity.
    - rewrite (T y I L (or_introl eq_refl)). cbn [veval]. unfold wired. now rewrite (T y I L (or_introl eq_refl)).
    - now rewrite IH.
    - rewrite IHa, IHc; [reflexivity| |]; intros y I' L' Iy; apply T; auto; apply in_or_app; auto.
  Qed.

  Lemma deps_end : exists d, J d /\ rows d /\
    forall (Q W1 W2 : store) i, (forall k, In k ts -> t_late k = true -> W1 (t_var k) = W2 (t_var k)) ->
      forall k, quick k -> sees W1 W2 d (t_var k) -> veval (wired ts Q W1) (final Q W1 i) (wtext ts k) = veval (wired ts Q W2) (final Q W2 i) (wtext ts k).
  Proof.
    unfold accepted in ACC. destruct (wires_deps ts n ts DepModel.no_deps) as [d0|] eqn:E0; [|discriminate].
    destruct (body_deps ts n b d0) as [d|] eqn:E1; [|discriminate].
    destruct (wires_ok ts [] DepModel.no_deps d0 eq_refl E0) as (J0 & R0 & W0).
    - split; [apply G_none|reflexivity].
    - cbn. discriminate.
    - intros k [].
    - exists d. destruct (body_two (fun _ => 0%Z) (fun _ => 0%Z) (fun _ => 0%Z) (fun _ _ _ => eq_refl) b d0 d 0 J0 R0 W0 E1 RB) as (dl & JD & RD & _).
      split; [exact JD|]. split; [exact RD|]. intros Q W1 W2 i L k Qk SE.
      destruct (body_two Q W1 W2 L b d0 d i J0 R0 W0 E1 RB) as (dl' & IV). eapply text_two; eauto.
  Qed.

  (** Number of <: trackers in a row. *)
  Definition isquick (x : var) : bool := existsb (fun k => named x k && negb (t_late k)) ts.
  Lemma isquick_k k : quick k -> isquick (t_var k) = true.
  Proof. intros [I L]. unfold isquick. apply existsb_exists. exists k. split; [exact I|]. unfold named. now rewrite Nat.eqb_refl, L. Qed.
  Lemma isquick_inv x : isquick x = true -> exists k, quick k /\ t_var k = x.
  Proof. unfold isquick. rewrite existsb_exists. intros (k & I & E). apply andb_prop in E. destruct E as [E L]. apply Nat.eqb_eq in E. exists k. split; [split; [exact I|now apply negb_true_iff]|auto]. Qed.
  Definition rank (d : DepModel.deps) (x : var) : nat := length (filter (fun y => isquick y && present (dep d x y)) (seq 0 n)).
  Lemma filter_le {A} (p q : A -> bool) l : (forall x, In x l -> p x = true -> q x = true) -> length (filter p l) <= length (filter q l).
  Proof.
    induction l as [|a l IH]; intros H; [reflexivity|]. cbn [filter]. pose proof (H a (or_introl eq_refl)) as Ha. assert (IH' := IH (fun x I => H x (or_intror I))).
    destruct (p a); [rewrite Ha by reflexivity; cbn [length]; lia|]. destruct (q a); cbn [length]; lia.
  Qed.
  Lemma filter_lt {A} (p q : A -> bool) l x : (forall x, In x l -> p x = true -> q x = true) -> In x l -> p x = false -> q x = true -> length (filter p l) < length (filter q l).
  Proof.
    induction l as [|a l IH]; intros H I P1 P2; [destruct I|]. cbn [filter]. destruct I as [->|I].
    - rewrite P1, P2. cbn [length]. pose proof (filter_le p q l (fun y Iy => H y (or_intror Iy))). lia.
    - pose proof (H a (or_introl eq_refl)) as Ha. assert (IH' := IH (fun y Iy => H y (or_intror Iy)) I P1 P2).
      destruct (p a); [rewrite Ha by reflexivity; cbn [length]; lia|]. destruct (q a); cbn [length]; lia.
  Qed.
  Lemma rank_less d k k' : J d -> rows d -> quick k -> quick k' -> present (dep d (t_var k) (t_var k')) = true -> rank d (t_var k') < rank d (t_var k).
  Proof.
    intros [(_ & _ & RW & CL) JW] RD Qk Qk' P. destruct (RD k' Qk') as [W' _]. unfold rank. apply (filter_lt _ _ _ (t_var k')).
    - intros y Iy H. apply andb_prop in H. destruct H as [H1 H2]. rewrite H1. cbn [andb]. eapply CL; eauto.
    - apply in_seq. pose proof (RW _ W'). lia.
    - rewrite JW; [apply andb_false_r|]. unfold isw. apply existsb_exists. exists k'. split; [apply Qk'|apply Nat.eqb_refl].
    - rewrite isquick_k by exact Qk'. exact P.
  Qed.

  Fixpoint iter (Q : store) (i m : nat) : store := match m with O => fun _ => 0%Z | S m' => nextw Q i (iter Q i m') end.

  Lemma code_idx l : forall deps P D i, snd (vexecs P (code l deps) (D, i)) = i.
  Proof. induction l as [|[x e] r IH]; intros deps P D i; [reflexivity|]. cbn [code vexecs vexec fst snd]. apply IH. Qed.
  Lemma settled_circuit Q W i E i' : settled ts (circuit ts b) Q Q W i E i' <->
    E = final Q W i /\ i' = i /\ forall k, In k ts -> W (t_var k) = nextw Q i W (t_var k).
  Proof.
    unfold settled. rewrite circuit_cycle. split.
    - intros [H1 H2]. injection H1 as H1. assert (E1 : E = final Q W i) by (unfold final; now rewrite H1).
      split; [exact E1|]. split; [rewrite <- (code_idx b [] (wired ts Q W) (wired ts Q W) i), H1; reflexivity|]. intros k Ik. rewrite nextw_at by exact Ik. rewrite <- E1. now apply H2.
    - intros (-> & -> & H). split.
      + unfold final. f_equal. rewrite (surjective_pairing (vexecs _ _ _)) at 1. f_equal. apply code_idx.
      + intros k Ik. rewrite <- nextw_at by exact Ik. now apply H.
  Qed.

  Theorem one_value Q i : exists W E, settled ts (circuit ts b) Q Q W i E i /\
    forall W' E' i', settled ts (circuit ts b) Q Q W' i E' i' -> i' = i /\ forall x, w x = true -> W' x = W x.
  Proof.
    destruct deps_end as (d & JD & RD & T).
    assert (LA : forall m m' k, In k ts -> t_late k = true -> iter Q i (S m) (t_var k) = iter Q i (S m') (t_var k)).
    { intros m m' k I L. cbn [iter]. rewrite !nextw_at by exact I. now apply late_const. }
    assert (ST : forall m k, quick k -> rank d (t_var k) < m -> iter Q i (S m) (t_var k) = iter Q i (S (S m)) (t_var k)).
    { induction m as [|m IH]; intros k Qk R; [lia|].
      change (nextw Q i (iter Q i (S m)) (t_var k) = nextw Q i (iter Q i (S (S m))) (t_var k)). rewrite !nextw_at by apply Qk. apply T; [intros k' I' L'; now apply LA| |].
      - exact Qk.
      - intros k' Qk' P. apply IH; [exact Qk'|]. pose proof (rank_less d k k' JD RD Qk Qk' P). lia. }
    assert (RK : forall x, rank d x <= n).
    { intros x. unfold rank. rewrite <- (seq_length n 0) at 2. clear. induction (seq 0 n) as [|a l IH]; [reflexivity|]. cbn [filter length].
      destruct (_ && _); cbn [length]; lia. }
    set (W := iter Q i (S (S n))).
    assert (FX : forall k, In k ts -> W (t_var k) = nextw Q i W (t_var k)).
    { intros k I. change (nextw Q i W) with (iter Q i (S (S (S n)))). destruct (t_late k) eqn:L; [now apply LA|]. apply ST; [now split|]. pose proof (RK (t_var k)). lia. }
    exists W, (final Q W i). split; [apply settled_circuit; auto|].
    intros W' E' i' S'. apply settled_circuit in S'. destruct S' as (_ & -> & S'). split; [reflexivity|].
    assert (LW : forall k, In k ts -> t_late k = true -> W' (t_var k) = W (t_var k)).
    { intros k I L. rewrite S', FX by exact I. rewrite !nextw_at by exact I. now apply late_const. }
    assert (QW : forall m k, quick k -> rank d (t_var k) < m -> W' (t_var k) = W (t_var k)).
    { induction m as [|m IH]; intros k Qk R; [lia|]. rewrite S', FX by apply Qk. rewrite !nextw_at by apply Qk. apply T; [exact LW|exact Qk|].
      intros k' Qk' P. apply IH; [exact Qk'|]. pose proof (rank_less d k k' JD RD Qk Qk' P). lia. }
    intros x Wx. destruct (wire_kind x Wx) as (k & Ik & <-). destruct (t_late k) eqn:L; [now apply LW|]. eapply QW; [now split|]. apply Nat.lt_succ_diag_r.
  Qed.
End Settle.
