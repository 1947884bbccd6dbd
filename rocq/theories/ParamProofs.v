(** Proofs on the types of parameterized inputs and outputs. *)
From Coq Require Import String Ascii List Bool ZArith Lia.
Import ListNotations.
From Verif Require Import ParamModel.
Local Open Scope string_scope.

(** * Keys *)
Lemma app_nil_s s : s ++ "" = s.
Proof. induction s; cbn; [reflexivity|now f_equal]. Qed.
Lemma app_assoc_s a b c : (a ++ b) ++ c = a ++ b ++ c.
Proof. induction a; cbn; [reflexivity|now f_equal]. Qed.
Fixpoint srev (s : string) : string := match s with EmptyString => "" | String c r => srev r ++ String c "" end.
Lemma srev_app a b : srev (a ++ b) = srev b ++ srev a.
Proof. induction a; cbn; [now rewrite app_nil_s|]. now rewrite IHa, app_assoc_s. Qed.
Lemma slen a b : String.length (a ++ b) = String.length a + String.length b.
Proof. induction a; cbn; [reflexivity|now rewrite IHa]. Qed.
Lemma app_inj_r a b c : a ++ c = b ++ c -> a = b.
Proof.
  revert b. induction a as [|x a IH]; intros [|y b] H; cbn in H; [reflexivity| | |].
  - exfalso. assert (E : String.length c = String.length (String y (b ++ c))) by now rewrite <- H. cbn in E. rewrite slen in E. lia.
  - exfalso. assert (E : String.length c = String.length (String x (a ++ c))) by now rewrite H. cbn in E. rewrite slen in E. lia.
  - injection H as -> H. f_equal. now apply IH.
Qed.

Definition kw (n : string) := upper n ++ "_WIDTH".
Definition ki (n : string) := upper n ++ "_INIT".
Definition ks (n : string) := upper n ++ "_SIGNED".
Lemma kwi n m : kw n <> ki m.
Proof. unfold kw, ki. intros H. apply (f_equal srev) in H. rewrite !srev_app in H. cbn in H. discriminate. Qed.
Lemma kws n m : kw n <> ks m.
Proof. unfold kw, ks. intros H. apply (f_equal srev) in H. rewrite !srev_app in H. cbn in H. discriminate. Qed.
Lemma kis n m : ki n <> ks m.
Proof. unfold ki, ks. intros H. apply (f_equal srev) in H. rewrite !srev_app in H. cbn in H. discriminate. Qed.
Lemma kww n m : kw n = kw m -> upper n = upper m. Proof. apply app_inj_r. Qed.
Lemma kii n m : ki n = ki m -> upper n = upper m. Proof. apply app_inj_r. Qed.
Lemma kss n m : ks n = ks m -> upper n = upper m. Proof. apply app_inj_r. Qed.

Lemma put_same c k v : put c k v k = Some v.
Proof. unfold put. now rewrite String.eqb_refl. Qed.
Lemma put_other c k v x : x <> k -> put c k v x = c x.
Proof. unfold put. destruct (x =? k) eqn:E; [apply String.eqb_eq in E; congruence|reflexivity]. Qed.

(** The keys of a name. *)
Definition keyof (n k : string) : Prop := k = kw n \/ k = ki n \/ k = ks n.
Lemma keyof_upper n m k : keyof n k -> keyof m k -> upper n = upper m.
Proof.
  unfold keyof. intros [-> |[-> | ->]] [H|[H|H]];
    solve [now apply kww|now apply kii|now apply kss|exfalso; revert H; apply kwi|exfalso; revert H; apply kws|exfalso; revert H; apply kis
          |exfalso; symmetry in H; revert H; apply kwi|exfalso; symmetry in H; revert H; apply kws|exfalso; symmetry in H; revert H; apply kis].
Qed.
Lemma keyof_same n m k : upper n = upper m -> keyof n k -> keyof m k.
Proof. unfold keyof, kw, ki, ks. intros ->. tauto. Qed.

(** * Evaluation only looks at the keys of the base. *)
Definition reads (b : bprint) (v : vio) (n : string) : Prop := is_param v = true /\ exists w, base_of b v = Some w /\ is_param w = true /\ n = v_name w.
Definition agree (b : bprint) (v : vio) (c d : ctx) : Prop := forall n, reads b v n -> forall k, keyof n k -> c k = d k.

Lemma width_agree b v c d : agree b v c d -> var_bit_width b v c = var_bit_width b v d.
Proof.
  unfold var_bit_width. intros H. destruct (is_param v) eqn:P; [|reflexivity]. destruct (base_of b v) as [w|] eqn:B; [|reflexivity].
  destruct (is_param w) eqn:Q; [|reflexivity]. cbv zeta. fold (kw (v_name w)). rewrite (H (v_name w)); [reflexivity| |now left].
  split; [assumption|]. exists w. auto.
Qed.
Lemma range_agree b v c d : agree b v c d -> var_bit_range b v c = var_bit_range b v d.
Proof.
  unfold var_bit_range. intros H. destruct (is_param v) eqn:P; [|reflexivity]. destruct (base_of b v) as [w|] eqn:B; [|reflexivity].
  destruct (is_param w) eqn:Q; [|reflexivity]. fold (kw (v_name w)). rewrite (H (v_name w)); [reflexivity| |now left].
  split; [assumption|]. exists w. auto.
Qed.
Lemma init_agree b v c d : agree b v c d -> var_init b v c = var_init b v d.
Proof.
  unfold var_init. intros H. destruct (v_table v); [reflexivity|]. destruct (is_param v) eqn:P; [|reflexivity]. destruct (base_of b v) as [w|] eqn:B; [|reflexivity].
  destruct (is_param w) eqn:Q; [|reflexivity]. fold (ki (v_name w)). rewrite (H (v_name w)); [reflexivity| |unfold keyof; tauto].
  split; [assumption|]. exists w. auto.
Qed.
Lemma type_agree b v c d : agree b v c d -> var_type b v c = var_type b v d.
Proof.
  unfold var_type. intros H. destruct (is_param v) eqn:P; [|reflexivity]. destruct (base_of b v) as [w|] eqn:B; [|reflexivity].
  destruct (is_param w) eqn:Q; [|reflexivity]. fold (ks (v_name w)). rewrite (H (v_name w)); [reflexivity| |unfold keyof; tauto].
  split; [assumption|]. exists w. auto.
Qed.

(** The values of the keys of [n] are those of the variable [v] of [b] in the context [d]. *)
Definition holds (c : ctx) (n : string) (b : bprint) (v : vio) (d : ctx) : Prop :=
  exists w i t, var_bit_width b v d = Ok w /\ var_init b v d = Ok i /\ var_type b v d = Ok t /\
    c (kw n) = Some w /\ c (ki n) = Some i /\ c (ks n) = Some (type_string t).

Lemma add_spec b n v c c' : add_to_ctx b n v c = Ok c' -> holds c' n b v c /\ forall k, ~ keyof n k -> c' k = c k.
Proof.
  unfold add_to_ctx. fold (kw n) (ki n) (ks n). intros H.
  destruct (var_bit_width b v c) as [w| |] eqn:W; cbn [rbind] in H; try discriminate.
  destruct (var_init b v (put c (kw n) w)) as [i| |] eqn:I; cbn [rbind] in H; try discriminate.
  destruct (var_type b v (put (put c (kw n) w) (ki n) i)) as [t| |] eqn:T; cbn [rbind] in H; try discriminate.
  injection H as <-. split.
  - exists w, i, t. split; [assumption|]. split.
    + rewrite <- I. unfold var_init. destruct (v_table v); [reflexivity|]. destruct (is_param v); [|reflexivity]. destruct (base_of b v) as [u|]; [|reflexivity].
      destruct (is_param u); [|reflexivity]. fold (ki (v_name u)). rewrite put_other; [reflexivity|]. intros E. symmetry in E. revert E. apply kwi.
    + split.
      * rewrite <- T. unfold var_type. destruct (is_param v); [|reflexivity]. destruct (base_of b v) as [u|]; [|reflexivity].
        destruct (is_param u); [|reflexivity]. fold (ks (v_name u)). rewrite !put_other; [reflexivity| |]; intros E; symmetry in E; revert E; [apply kws|apply kis].
      * split; [rewrite put_other, put_other, put_same by (apply kwi || apply kws); reflexivity|]. split; [rewrite put_other, put_same by apply kis; reflexivity|apply put_same].
  - unfold keyof. intros k H. rewrite !put_other; tauto.
Qed.

Lemma holds_ctx c c' n b v d : (forall k, keyof n k -> c' k = c k) -> holds c n b v d -> holds c' n b v d.
Proof.
  intros E [w [i [t [H1 [H2 [H3 [H4 [H5 H6]]]]]]]]. exists w, i, t. repeat split; try assumption; rewrite E; auto; unfold keyof; tauto.
Qed.
Lemma holds_agree c n b v d d' : agree b v d d' -> holds c n b v d -> holds c n b v d'.
Proof.
  intros A [w [i [t [H1 [H2 [H3 H4]]]]]]. exists w, i, t. rewrite <- (width_agree _ _ _ _ A), <- (init_agree _ _ _ _ A), <- (type_agree _ _ _ _ A). auto.
Qed.

(** * Ports *)
Definition ios (b : bprint) : list vio := (b_ins b ++ b_outs b ++ b_inouts b)%list.
(** A port whose type is not given: 'auto', or member of an interface. *)
Definition auto_port (b : bprint) (n : string) : Prop := In n (b_params b) /\ exists v, get_vio b n = Some v /\ v_same v = "" /\ is_param v = true /\ v_name v = n.
(** No two names differing by the case only. *)
Definition cased (l : list string) : Prop := forall n m, In n l -> In m l -> upper n = upper m -> n = m.
(** A unit as built by the declarations: no duplicates, parameterized ports recorded once. *)
Record unit_ok (b : bprint) : Prop := {
  u_ios : NoDup (map v_name (ios b));
  u_params : NoDup (b_params b);
  u_rec : forall v, In v (ios b) -> is_param v = true -> In (v_name v) (b_params b);
  u_prm : forall n, In n (b_params b) -> exists v, In v (ios b) /\ v_name v = n /\ get_vio b n = Some v /\ is_param v = true
}.

Lemma find_in_name n l v : find_in n l = Some v -> v_name v = n /\ In v l.
Proof. unfold find_in. intros H. apply find_some in H as [H1 H2]. apply String.eqb_eq in H2. auto. Qed.
Lemma get_vio_name b n v : get_vio b n = Some v -> v_name v = n.
Proof.
  unfold get_vio. destruct (find_in n (b_vars b)) eqn:E1; [intros H; injection H as <-; now apply find_in_name in E1|].
  destruct (find_in n (b_ins b)) eqn:E2; [intros H; injection H as <-; now apply find_in_name in E2|].
  destruct (find_in n (b_outs b)) eqn:E3; [intros H; injection H as <-; now apply find_in_name in E3|]. intros H. now apply find_in_name in H.
Qed.

Section Make.
  Variables (p : bprint) (i : instance) (cp c : ctx).
  Notation b := (i_bp i).
  Hypothesis UO : unit_ok b.
  Hypothesis CS : cased (map v_name (ios b)).
  Hypothesis MK : make_ctx p i cp = Ok c.

  (** Names whose keys are given by the specializations. *)
  Definition specialized (n : string) : Prop := var_in_ctx n (i_spec i) = true.
  (** A port bound to a variable of the parent. *)
  Definition bound_var (n : string) (v : vio) : Prop :=
    ~ specialized n /\ auto_port b n /\ exists w, bound_to n (i_binds i) = Some w /\ get_vio p w = Some v /\ v_table v = false.
  (** No port handled before, and no specialization, has the keys the type of the bound variable is read from. *)
  Definition no_capture (n : string) (v : vio) : Prop :=
    forall r, reads p v r -> (forall k, keyof r k -> i_spec i k = None) /\
      (forall pre post m, b_params b = (pre ++ n :: post)%list -> In m pre -> upper m <> upper r).

  Lemma params_spec (l pre : list string) (d d' : ctx) :
    b_params b = (pre ++ l)%list ->
    (forall k, (forall m, In m pre -> ~ keyof m k) -> d k = override cp (i_spec i) k) ->
    (forall k n, keyof n k -> specialized n -> d k = i_spec i k) ->
    (forall n v, In n pre -> bound_var n v -> no_capture n v -> holds d n p v cp) ->
    add_params p i l d = Ok d' ->
    (forall k, (forall m, In m (b_params b) -> ~ keyof m k) -> d' k = override cp (i_spec i) k) /\
    (forall k n, keyof n k -> specialized n -> d' k = i_spec i k) /\
    (forall n v, In n (b_params b) -> bound_var n v -> no_capture n v -> holds d' n p v cp).
  Proof.
    assert (CN : forall n m, In n (b_params b) -> In m (b_params b) -> upper n = upper m -> n = m).
    { intros n m Hn Hm. destruct (u_prm _ UO n Hn) as [v [V1 [V2 _]]]. destruct (u_prm _ UO m Hm) as [u [U1 [U2 _]]].
      apply CS; [rewrite <- V2|rewrite <- U2]; now apply in_map. }
    assert (SU : forall n m, specialized n -> upper n = upper m -> specialized m).
    { unfold specialized, var_in_ctx. now intros n m H <-. }
    revert pre d. induction l as [|n l IH]; intros pre d E H1 H2 H3 A; cbn [add_params] in A.
    - injection A as <-. rewrite app_nil_r in E. rewrite E. auto.
    - assert (E' : b_params b = ((pre ++ [n]) ++ l)%list) by now rewrite <- app_assoc.
      assert (NPRE : ~ In n pre).
      { pose proof (u_params _ UO) as ND. rewrite E in ND. apply NoDup_remove_2 in ND. intros X. apply ND. apply in_or_app. now left. }
      assert (INN : In n (b_params b)) by (rewrite E; apply in_or_app; right; now left).
      assert (SKIP : (forall v, bound_var n v -> False) -> add_params p i l d = Ok d' -> _) by
        (intros NB A'; refine (IH (pre ++ [n])%list d E' _ H2 _ A');
         [intros k Hk; apply H1; intros m Hm; apply Hk; apply in_or_app; now left
         |intros m v Hm; apply in_app_or in Hm as [Hm|[<- |[]]]; [now apply H3|intros B; now apply NB in B]]).
      destruct (var_in_ctx n (i_spec i)) eqn:SP.
      { apply SKIP; [|exact A]. intros v [B _]. now apply B. }
      destruct (get_vio b n) as [io|] eqn:G; [|discriminate]. destruct (v_same io =? "") eqn:SA.
      2:{ apply SKIP; [|exact A]. intros v [_ [[_ [v' [V1 [V2 _]]]] _]]. rewrite G in V1. injection V1 as <-. rewrite V2 in SA. discriminate. }
      destruct (bound_to n (i_binds i)) as [w|] eqn:BT; [|discriminate].
      destruct (get_vio p w) as [v|] eqn:GP.
      2:{ apply SKIP; [|exact A]. intros v [_ [_ [w' [W1 [W2 _]]]]]. rewrite BT in W1. injection W1 as <-. congruence. }
      destruct (v_table v) eqn:TB.
      { apply SKIP; [|exact A]. intros v' [_ [_ [w' [W1 [W2 W3]]]]]. rewrite BT in W1. injection W1 as <-. rewrite GP in W2. injection W2 as <-. congruence. }
      destruct (add_to_ctx p n v d) as [d1| |] eqn:AD; cbn [rbind] in A; try discriminate.
      destruct (add_spec _ _ _ _ _ AD) as [HO HF].
      apply (IH (pre ++ [n])%list d1 E'); [| | |exact A].
      + intros k Hk. rewrite HF; [apply H1; intros m Hm; apply Hk; apply in_or_app; now left|]. apply Hk. apply in_or_app. right. now left.
      + intros k m Km Sm. rewrite HF; [now apply (H2 _ m)|]. intros Kn. pose proof (keyof_upper _ _ _ Km Kn) as U. apply (SU _ _ Sm) in U.
        unfold specialized in U. congruence.
      + intros m u Hm B NC. apply in_app_or in Hm as [Hm|[<- |[]]].
        * apply (holds_ctx d); [|now apply H3]. intros k Hk. apply HF. intros Kn. pose proof (keyof_upper _ _ _ Hk Kn) as U.
          apply CN in U; [subst; contradiction| |assumption]. rewrite E. apply in_or_app. now left.
        * destruct B as [_ [_ [w' [W1 [W2 W3]]]]]. rewrite BT in W1. injection W1 as <-. rewrite GP in W2. injection W2 as <-.
          refine (holds_agree _ _ _ _ _ _ _ HO). intros r Hr k Hk. destruct (NC r Hr) as [N1 N2].
          rewrite H1; [|intros m Hm Kr; apply (N2 pre l m E Hm); exact (keyof_upper _ _ _ Kr Hk)]. unfold override. now rewrite N1.
  Qed.

  (** Ports with a type, or sameas. *)
  Definition given (v : vio) : Prop := is_param v = false \/ v_same v <> "".
  Lemma ios_spec (l : list vio) (d d' : ctx) :
    (forall v, In v l -> In v (ios b)) -> add_ios b l d = Ok d' ->
    (forall k, (forall v, In v l -> given v -> ~ keyof (v_name v) k) -> d' k = d k) /\
    (NoDup (map v_name l) -> forall v, In v l -> given v -> exists e, holds d' (v_name v) b v e /\
       forall k, (forall u, In u l -> given u -> ~ keyof (v_name u) k) -> e k = d k).
  Proof.
    revert d. induction l as [|io l IH]; intros d HL A; cbn [add_ios] in A.
    - injection A as <-. split; [reflexivity|]. intros _ v [].
    - assert (HL' : forall v, In v l -> In v (ios b)) by (intros v Hv; apply HL; now right).
      destruct (negb (is_param io) || negb (v_same io =? "")) eqn:GV.
      + destruct (add_to_ctx b (v_name io) io d) as [d1| |] eqn:AD; cbn [rbind] in A; try discriminate.
        destruct (add_spec _ _ _ _ _ AD) as [HO HF]. destruct (IH d1 HL' A) as [K1 K2].
        assert (GI : given io).
        { unfold given. apply orb_prop in GV as [GV|GV]; apply negb_true_iff in GV; [now left|right]. intros X. rewrite X in GV. discriminate. }
        split.
        * intros k Hk. rewrite K1; [apply HF; apply Hk; [now left|assumption]|]. intros v Hv. apply Hk. now right.
        * intros ND v Hv Gv. cbn in ND. inversion ND as [|? ? N1 N2]; subst. destruct Hv as [<- |Hv].
          -- exists d. split; [|reflexivity]. apply (holds_ctx d1); [|exact HO]. intros k Hk. apply K1. intros u Hu Gu Ku. apply N1.
             rewrite (CS (v_name io) (v_name u)); [now apply in_map|apply in_map, HL; now left|apply in_map, HL; now right|].
             exact (keyof_upper _ _ _ Hk Ku).
          -- destruct (K2 N2 v Hv Gv) as [e [E1 E2]]. exists e. split; [exact E1|]. intros k Hk. rewrite E2; [apply HF; apply Hk; [now left|assumption]|].
             intros u Hu. apply Hk. now right.
      + apply orb_false_iff in GV as [G1 G2]. apply negb_false_iff in G1, G2.
        assert (NG : ~ given io) by (unfold given; rewrite G1; intros [X|X]; [discriminate|]; apply X; now apply String.eqb_eq).
        destruct (IH d HL' A) as [K1 K2]. split.
        * intros k Hk. apply K1. intros v Hv. apply Hk. now right.
        * intros ND v Hv Gv. cbn in ND. inversion ND as [|? ? N1 N2]; subst. destruct Hv as [<- |Hv]; [contradiction|].
          destruct (K2 N2 v Hv Gv) as [e [E1 E2]]. exists e. split; [exact E1|]. intros k Hk. apply E2. intros u Hu. apply Hk. now right.
  Qed.

  Lemma auto_not_given n v : auto_port b n -> In v (ios b) -> given v -> upper n <> upper (v_name v).
  Proof.
    intros [Hn [u [U1 [U2 [U3 U4]]]]] Hv Gv E. destruct (u_prm _ UO n Hn) as [u' [W1 [W2 [W3 W4]]]]. rewrite U1 in W3. injection W3 as <-.
    assert (X : n = v_name v) by (apply CS; [rewrite <- U4; now apply in_map|now apply in_map|assumption]).
    assert (Y : u = v).
    { clear - UO W1 Hv X U4. pose proof (u_ios _ UO) as ND. rewrite <- U4 in X. clear U4 UO.
      induction (ios b) as [|a l IH]; [contradiction|]. cbn in ND. inversion ND as [|? ? N1 N2]; subst.
      destruct W1 as [<- |W1], Hv as [<- |Hv]; [reflexivity| | |now apply IH].
      - exfalso. apply N1. rewrite X. now apply in_map.
      - exfalso. apply N1. rewrite <- X. now apply in_map. }
    subst v. destruct Gv as [Gv|Gv]; congruence.
  Qed.

  (** The keys of the ports in the context of the instance. *)
  Theorem make_spec :
    (forall k n, keyof n k -> specialized n -> auto_port b n -> c k = i_spec i k) /\
    (forall n v, bound_var n v -> no_capture n v -> holds c n p v cp).
  Proof.
    unfold make_ctx in MK. destruct (add_params p i (b_params b) (override cp (i_spec i))) as [c1| |] eqn:AP; cbn [rbind] in MK; try discriminate.
    destruct (params_spec (b_params b) [] (override cp (i_spec i)) c1 eq_refl) as [P1 [P2 P3]]; [reflexivity| |intros n v []|exact AP|].
    { intros k n Hk Hs. unfold override. unfold specialized, var_in_ctx, has in Hs. fold (kw n) (ki n) (ks n) in Hs.
      destruct (i_spec i (kw n)) eqn:A1; [|discriminate]. destruct (i_spec i (ki n)) eqn:A2; [|discriminate]. destruct (i_spec i (ks n)) eqn:A3; [|discriminate].
      destruct Hk as [-> |[-> | ->]]; now rewrite ?A1, ?A2, ?A3. }
    assert (K : forall n k, auto_port b n -> keyof n k -> c k = c1 k).
    { intros n k An Hk. destruct (b_alg b); [|now injection MK as <-].
      destruct (ios_spec (ios b) c1 c (fun v Hv => Hv) MK) as [I1 _]. apply I1. intros v Hv Gv Kv.
      apply (auto_not_given n v An Hv Gv). exact (keyof_upper _ _ _ Hk Kv). }
    split.
    - intros k n Hk Hs An. rewrite (K n k An Hk). now apply (P2 k n).
    - intros n v Hb Hc. pose proof Hb as [_ [An _]]. apply (holds_ctx c1); [intros k Hk; now apply (K n)|]. apply P3; [now apply An|assumption|assumption].
  Qed.
End Make.
