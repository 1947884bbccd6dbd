(** Parameterized types: chains of sameas, hierarchies of instances, contexts recorded by the instances. *)
From Coq Require Import String Ascii List Bool ZArith Lia.
Import ListNotations.
From Verif Require Import ParamModel ParamProofs.
Local Open Scope string_scope.

(** * Chains of sameas. The declaration giving its type to a name. *)
Inductive types (ds : list decl) : string -> decl -> Prop :=
| ty_here d : In d ds -> (forall m, d_type d <> TSame m) -> types ds (d_name d) d
| ty_same d m r : In d ds -> d_type d = TSame m -> types ds m r -> types ds (d_name d) r.

Lemma types_in ds n r : types ds n r -> In r ds /\ forall m, d_type r <> TSame m.
Proof. induction 1; auto. Qed.
Lemma types_more ds ds' n r : (forall d, In d ds -> In d ds') -> types ds n r -> types ds' n r.
Proof. intros H. induction 1; [apply ty_here; auto|eapply ty_same; eauto]. Qed.

Lemma find_in_app n l a : find_in n (l ++ [a])%list = match find_in n l with Some v => Some v | None => if v_name a =? n then Some a else None end.
Proof. unfold find_in. induction l as [|x l IH]; cbn; [reflexivity|]. destruct (v_name x =? n); [reflexivity|apply IH]. Qed.

(** What is known of the variables after the declarations [ds]. *)
Definition made (ds : list decl) (l : list vio) (d : decl) (v : vio) : Prop :=
  v_init v = d_init d /\ v_noinit v = d_noinit d /\ v_table v = false /\
  match d_type d with
  | TType t w => v_base v = t /\ t <> Parameterized /\ v_width v = w /\ v_same v = "" /\ types ds (d_name d) d
  | TAuto => v_base v = Parameterized /\ v_same v = "" /\ types ds (d_name d) d
  | TSame _ => v_base v = Parameterized /\ v_same v <> "" /\ exists r, types ds (d_name d) r /\ v_same v = d_name r
  end.
Record declared (ds : list decl) (l : list vio) : Prop := {
  dc_find : forall d, In d ds -> exists v, find_in (d_name d) l = Some v /\ made ds l d v;
  dc_only : forall n v, find_in n l = Some v -> exists d, In d ds /\ d_name d = n /\ made ds l d v;
  dc_once : forall d e, In d ds -> In e ds -> d_name d = d_name e -> d = e
}.

Lemma made_more ds ds' l l' d v : (forall e, In e ds -> In e ds') -> made ds l d v -> made ds' l' d v.
Proof.
  unfold made. intros M [H1 [H2 [H3 H4]]]. repeat (split; [assumption|]). destruct (d_type d).
  - destruct H4 as [A [B [C [D E]]]]. repeat (split; [assumption|]). now apply (types_more ds).
  - destruct H4 as [A [B [r [R1 R2]]]]. repeat (split; [assumption|]). exists r. split; [now apply (types_more ds)|assumption].
  - destruct H4 as [A [B E]]. repeat (split; [assumption|]). now apply (types_more ds).
Qed.

Lemma same_root_ok ds l n v : declared ds l -> (forall d, In d ds -> d_name d <> "") -> find_in n l = Some v ->
  exists r, same_root (S (List.length l)) l n = Some r /\ r <> "" /\ exists d, types ds n d /\ d_name d = r.
Proof.
  intros [D1 D2 D3] NE H. destruct (D2 n v H) as [d [I1 [I2 M]]].
  assert (LEN : exists k, List.length l = S k).
  { destruct l as [|a l']; [discriminate|]. eexists. reflexivity. }
  destruct LEN as [k EL]. rewrite EL. cbn [same_root]. rewrite H. destruct M as [_ [_ [_ M]]]. destruct (d_type d) as [t w|m|] eqn:T.
  - destruct M as [_ [_ [_ [E TY]]]]. rewrite E. exists n. split; [reflexivity|]. split; [rewrite <- I2; now apply NE|]. exists d. rewrite <- I2. auto.
  - destruct M as [_ [E [r [R1 R2]]]]. destruct (v_same v =? "") eqn:Z; [apply String.eqb_eq in Z; contradiction|].
    destruct (types_in _ _ _ R1) as [R3 R4]. destruct (D1 r R3) as [u [U1 U2]]. rewrite R2, U1.
    assert (US : v_same u = "").
    { destruct U2 as [_ [_ [_ U2]]]. destruct (d_type r) as [t w|m'|] eqn:TR; [now destruct U2 as [_ [_ [_ [U2 _]]]]|exfalso; now apply (R4 m')|now destruct U2 as [_ [U2 _]]]. }
    rewrite US. cbn. exists (d_name r). split; [reflexivity|]. split; [now apply NE|]. exists r. rewrite <- I2. auto.
  - destruct M as [_ [E TY]]. rewrite E. exists n. split; [reflexivity|]. split; [rewrite <- I2; now apply NE|]. exists d. rewrite <- I2. auto.
Qed.

Lemma declare_ok ds l d l' : declared ds l -> (forall e, In e (ds ++ [d])%list -> d_name e <> "") -> declare l d = Ok l' -> declared (ds ++ [d])%list l'.
Proof.
  intros DC NE H. pose proof DC as [D1 D2 D3]. unfold declare in H. destruct (find_in (d_name d) l) eqn:F; [discriminate|].
  assert (M : forall e, In e ds -> In e (ds ++ [d])%list) by (intros e He; apply in_or_app; now left).
  assert (ID : In d (ds ++ [d])%list) by (apply in_or_app; right; now left).
  assert (NEW : forall e, In e ds -> d_name e <> d_name d).
  { intros e He E. destruct (D1 e He) as [v [V _]]. rewrite E, F in V. discriminate. }
  assert (X : exists a, l' = (l ++ [a])%list /\ v_name a = d_name d /\ made (ds ++ [d]) l' d a).
  { unfold made. destruct (d_type d) as [t w|m|] eqn:T.
    - destruct t; try discriminate; injection H as <-; eexists; (split; [reflexivity|]); (split; [reflexivity|]); cbn; repeat (split; try reflexivity; try discriminate);
        (apply ty_here; [exact ID|rewrite T; discriminate]).
    - destruct (find_in m l) as [v|] eqn:Fm; [|discriminate].
      destruct (same_root_ok ds l m v DC (fun e He => NE e (M e He)) Fm) as [r [R1 [R2 [r' [R3 R4]]]]]. rewrite R1 in H. injection H as <-.
      eexists. split; [reflexivity|]. split; [reflexivity|]. cbn. repeat (split; try reflexivity; try assumption).
      exists r'. split; [|now rewrite R4]. eapply ty_same; [exact ID|exact T|]. now apply (types_more ds).
    - injection H as <-. eexists. split; [reflexivity|]. split; [reflexivity|]. cbn. repeat (split; try reflexivity).
      apply ty_here; [exact ID|rewrite T; discriminate]. }
  destruct X as [a [-> [XA XM]]]. split.
  - intros e He. apply in_app_or in He as [He|[<- |[]]].
    + destruct (D1 e He) as [v [V1 V2]]. exists v. rewrite find_in_app, V1. split; [reflexivity|]. eapply made_more; [exact M|exact V2].
    + exists a. rewrite find_in_app, F, XA, String.eqb_refl. auto.
  - intros n v Hv. rewrite find_in_app in Hv. destruct (find_in n l) as [u|] eqn:Fn.
    + injection Hv as <-. destruct (D2 n u Fn) as [e [E1 [E2 E3]]]. exists e. split; [auto|]. split; [assumption|]. eapply made_more; [exact M|exact E3].
    + destruct (v_name a =? n) eqn:E; [|discriminate]. injection Hv as <-. apply String.eqb_eq in E. exists d. split; [assumption|]. split; [now rewrite <- XA|exact XM].
  - intros e f He Hf E. apply in_app_or in He as [He|[<- |[]]]; apply in_app_or in Hf as [Hf|[<- |[]]]; [now apply D3|exfalso; now apply (NEW e)|exfalso; now apply (NEW f)|reflexivity].
Qed.

Lemma declare_all_ok ds : forall ds0 l l', declared ds0 l -> (forall e, In e (ds0 ++ ds)%list -> d_name e <> "") -> declare_all l ds = Ok l' -> declared (ds0 ++ ds)%list l'.
Proof.
  induction ds as [|d ds IH]; intros ds0 l l' D NE H; cbn [declare_all] in H.
  - injection H as <-. now rewrite app_nil_r.
  - destruct (declare l d) as [l1| |] eqn:E; cbn [rbind] in H; try discriminate.
    replace (ds0 ++ d :: ds)%list with ((ds0 ++ [d]) ++ ds)%list in * by now rewrite <- app_assoc.
    apply (IH _ l1); [|exact NE|exact H]. apply (declare_ok _ l); [exact D| |exact E]. intros e He. apply NE. apply in_or_app. now left.
Qed.
Lemma declared_nil : declared [] [].
Proof. split; [intros d []|intros n v H; discriminate|intros d e []]. Qed.
Lemma declared_ok ds l : (forall d, In d ds -> d_name d <> "") -> declare_all [] ds = Ok l -> declared ds l.
Proof. intros NE H. apply (declare_all_ok ds [] [] l declared_nil NE H). Qed.

(** The declaration giving the type is unique. *)
Lemma types_fun ds l n r r' : declared ds l -> types ds n r -> types ds n r' -> r = r'.
Proof.
  intros [_ _ D3] H. revert r'. induction H as [d I1 T1|d m r I1 T1 H IH]; intros r' H'.
  - remember (d_name d) as n eqn:N. destruct H' as [e I2 T2|e m r I2 T2 H']; [now apply D3|].
    assert (d = e) by (apply D3; auto). subst e. now apply T1 in T2.
  - remember (d_name d) as n eqn:N. destruct H' as [e I2 T2|e m' r' I2 T2 H'].
    + assert (d = e) by (apply D3; auto). subst e. now apply T2 in T1.
    + assert (d = e) by (apply D3; auto). subst e. assert (m = m') by congruence. subst m'. now apply IH.
Qed.

Lemma chain_values ds l b d r v c : (forall e, In e ds -> d_name e <> "") -> declare_all [] ds = Ok l -> (forall n, get_vio b n = find_in n l) ->
  In d ds -> types ds (d_name d) r -> find_in (d_name d) l = Some v ->
  match d_type r with
  | TType t w => var_bit_width b v c = Ok (to_string w) /\ var_bit_range b v c = Ok (to_string (w - 1)) /\ var_type b v c = Ok t
  | _ => (forall w, c (kw (d_name r)) = Some w -> var_bit_width b v c = Ok w /\ var_bit_range b v c = Ok (w ++ "-1")) /\
         (forall s, c (ks (d_name r)) = Some s -> var_type b v c = Ok (if s =? "signed" then Int else UInt)) /\
         (forall s, c (ki (d_name r)) = Some s -> var_init b v c = Ok s)
  end.
Proof.
  intros NE H G I1 TY F. pose proof (declared_ok _ _ NE H) as DC. destruct (dc_find _ _ DC d I1) as [v' [V1 M]]. rewrite F in V1. injection V1 as <-.
  pose proof (find_in_name _ _ _ F) as [NV _].
  assert (BO : exists u, base_of b v = Some u /\ find_in (d_name r) l = Some u /\ (v_base v <> Parameterized -> u = v)).
  { unfold base_of. rewrite G. destruct M as [_ [_ [_ M]]]. destruct (d_type d) as [t w|m|] eqn:T.
    - destruct M as [_ [_ [_ [E TY']]]]. rewrite E. cbn. rewrite NV. exists v. rewrite (types_fun _ _ _ _ _ DC TY TY'). auto.
    - destruct M as [B [E [r' [R1 R2]]]]. rewrite (types_fun _ _ _ _ _ DC TY R1), R2. destruct (d_name r' =? "") eqn:Z; [apply String.eqb_eq in Z; congruence|].
      destruct (types_in _ _ _ R1) as [R3 _]. destruct (dc_find _ _ DC r' R3) as [u [U _]]. exists u. split; [assumption|]. split; [assumption|]. congruence.
    - destruct M as [B [E TY']]. rewrite E. cbn. rewrite NV. exists v. rewrite (types_fun _ _ _ _ _ DC TY TY'). auto. }
  destruct BO as [u [B1 [B2 B3]]]. destruct (types_in _ _ _ TY) as [R3 R4]. destruct (dc_find _ _ DC r R3) as [u' [U1 MU]]. rewrite B2 in U1. injection U1 as <-.
  pose proof (find_in_name _ _ _ B2) as [NU _]. destruct M as [_ [_ [TB _]]]. destruct MU as [_ [_ [_ MU]]].
  unfold var_bit_width, var_bit_range, var_type, var_init. destruct (d_type r) as [t w|m|] eqn:T; [|exfalso; now apply (R4 m)|].
  - destruct MU as [E1 [E2 [E3 _]]]. assert (PU : is_param u = false) by (unfold is_param; rewrite E1; destruct t; congruence).
    destruct (is_param v) eqn:PV; [rewrite B1, PU, E1, E3; auto|].
    assert (u = v) by (apply B3; unfold is_param in PV; destruct (v_base v); congruence). subst u. rewrite E1, E3. auto.
  - destruct MU as [E1 _]. assert (PU : is_param u = true) by (unfold is_param; now rewrite E1).
    assert (PV : is_param v = true).
    { unfold is_param. destruct (v_base v) eqn:BV; try reflexivity; assert (u = v) by (apply B3; discriminate); subst u; congruence. }
    rewrite PV, B1, PU, TB, NU. cbv zeta. fold (kw (d_name r)) (ks (d_name r)) (ki (d_name r)). split; [|split]; intros x Hx; rewrite Hx; auto.
Qed.

(** * Hierarchies: an algorithm at the top and its context, or an instance in a hierarchy. *)
Inductive tree := Top (b : bprint) (c : ctx) | Under (p : tree) (i : instance).
Definition unit_of (h : tree) : bprint := match h with Top b _ => b | Under _ i => i_bp i end.
Fixpoint context (h : tree) : res ctx := match h with Top _ c => Ok c | Under p i => let! cp := context p in make_ctx (unit_of p) i cp end.

(** The type of a variable, in its instance. *)
Inductive resolved : tree -> string -> string * base -> Prop :=
| rs_type h n v : get_vio (unit_of h) n = Some v -> v_table v = false -> is_param v = false -> resolved h n (to_string (v_width v), v_base v)
| rs_same h n v t : get_vio (unit_of h) n = Some v -> v_table v = false -> is_param v = true -> v_same v <> "" -> resolved h (v_same v) t -> resolved h n t
| rs_top b c n v w s : get_vio b n = Some v -> v_table v = false -> is_param v = true -> v_same v = "" -> c (kw n) = Some w -> c (ks n) = Some s ->
    resolved (Top b c) n (w, if s =? "signed" then Int else UInt)
| rs_spec p i n v w s : auto_port (i_bp i) n -> get_vio (i_bp i) n = Some v -> v_table v = false -> specialized i n -> i_spec i (kw n) = Some w -> i_spec i (ks n) = Some s ->
    resolved (Under p i) n (w, if s =? "signed" then Int else UInt)
| rs_bind p i n v w t : auto_port (i_bp i) n -> get_vio (i_bp i) n = Some v -> v_table v = false -> ~ specialized i n -> bound_to n (i_binds i) = Some w -> resolved p w t ->
    resolved (Under p i) n t.

(** sameas refers to the end of the chain. *)
Definition same_ok (b : bprint) : Prop := forall n v u, get_vio b n = Some v -> is_param v = true -> v_same v <> "" -> get_vio b (v_same v) = Some u -> v_same u = "".
Fixpoint legal (h : tree) : Prop :=
  match h with
  | Top b _ => same_ok b
  | Under p i => legal p /\ same_ok (i_bp i) /\ unit_ok (i_bp i) /\ cased (map v_name (ios (i_bp i))) /\
                 forall n v, bound_var (unit_of p) i n v -> no_capture (unit_of p) i n v
  end.

Definition range_of (w e : string) : Prop := e = w ++ "-1" \/ exists z, w = to_string z /\ e = to_string (z - 1).

Lemma resolved_vio h n t : resolved h n t -> exists v, get_vio (unit_of h) n = Some v /\ v_table v = false /\ snd t <> Parameterized.
Proof.
  induction 1 as [h n v G TB P|h n v t G TB P S H IH|b c n v w s G TB P S K1 K2|p i n v w s A G TB SP K1 K2|p i n v w t A G TB NS B H IH]; exists v; (split; [exact G|]); (split; [exact TB|]).
  - cbn. intros E. unfold is_param in P. now rewrite E in P.
  - now destruct IH as [_ [_ [_ IH]]].
  - cbn. destruct (s =? "signed"); discriminate.
  - cbn. destruct (s =? "signed"); discriminate.
  - now destruct IH as [_ [_ [_ IH]]].
Qed.

Lemma read_auto b n v c w s : get_vio b n = Some v -> is_param v = true -> v_same v = "" -> c (kw n) = Some w -> c (ks n) = Some s ->
  var_bit_width b v c = Ok w /\ var_type b v c = Ok (if s =? "signed" then Int else UInt) /\ exists e, var_bit_range b v c = Ok e /\ range_of w e.
Proof.
  intros G P S K1 K2. pose proof (get_vio_name _ _ _ G) as N. unfold var_bit_width, var_type, var_bit_range, base_of. rewrite P, S. cbn [String.eqb]. rewrite N, G, P. cbv zeta.
  rewrite N. fold (kw n) (ks n). rewrite K1, K2. split; [reflexivity|]. split; [reflexivity|]. eexists. split; [reflexivity|]. now left.
Qed.

Theorem resolved_ok h n t : resolved h n t -> legal h -> forall c v, context h = Ok c -> get_vio (unit_of h) n = Some v ->
  var_bit_width (unit_of h) v c = Ok (fst t) /\ var_type (unit_of h) v c = Ok (snd t) /\ exists e, var_bit_range (unit_of h) v c = Ok e /\ range_of (fst t) e.
Proof.
  induction 1 as [h n v G TB P|h n v t G TB P S H IH|b cx n v w s G TB P S K1 K2|p i n v w s A G TB SP K1 K2|p i n v w t A G TB NS B H IH]; intros LG c v' CX G'; cbn [unit_of] in *; rewrite G in G'; injection G' as <-.
  - unfold var_bit_width, var_type, var_bit_range. rewrite P. split; [reflexivity|]. split; [reflexivity|]. eexists. split; [reflexivity|]. right. exists (v_width v). auto.
  - destruct (resolved_vio _ _ _ H) as [u [U1 [U2 U3]]]. destruct (IH LG c u CX U1) as [I1 [I2 [e [I3 I4]]]].
    assert (SU : v_same u = "").
    { destruct h as [b0 c0|p0 i0]; cbn in LG, G, U1; [now apply (LG n v u)|destruct LG as [_ [LG _]]; now apply (LG n v u)]. }
    pose proof (get_vio_name _ _ _ U1) as NU.
    assert (BV : base_of (unit_of h) v = Some u).
    { unfold base_of. destruct (v_same v =? "") eqn:Z; [apply String.eqb_eq in Z; contradiction|assumption]. }
    assert (BU : base_of (unit_of h) u = Some u) by (unfold base_of; rewrite SU; cbn; now rewrite NU).
    revert I1 I2 I3. unfold var_bit_width, var_type, var_bit_range. rewrite P, BV, BU. destruct (is_param u) eqn:PU; intros I1 I2 I3.
    + split; [exact I1|]. split; [exact I2|]. exists e. auto.
    + split; [exact I1|]. split; [exact I2|]. exists e. auto.
  - cbn in CX. injection CX as <-. now apply (read_auto b n).
  - cbn [context] in CX. destruct (context p) as [cp| |] eqn:CP; cbn [rbind] in CX; try discriminate. destruct LG as [L1 [L2 [L3 [L4 L5]]]].
    destruct (make_spec (unit_of p) i cp c L3 L4 CX) as [M1 M2]. pose proof A as [A1 [v' [A2 [A3 [A4 A5]]]]]. cbn [unit_of] in *. rewrite G in A2. injection A2 as <-.
    apply (read_auto (i_bp i) n); [assumption|assumption|assumption| |]; rewrite (M1 _ n); auto; unfold keyof; tauto.
  - cbn [context] in CX. destruct (context p) as [cp| |] eqn:CP; cbn [rbind] in CX; try discriminate. destruct LG as [L1 [L2 [L3 [L4 L5]]]].
    destruct (make_spec (unit_of p) i cp c L3 L4 CX) as [M1 M2]. pose proof A as [A1 [v' [A2 [A3 [A4 A5]]]]]. cbn [unit_of] in *. rewrite G in A2. injection A2 as <-.
    destruct (resolved_vio _ _ _ H) as [u [U1 [U2 U3]]].
    assert (BV : bound_var (unit_of p) i n u) by (split; [exact NS|]; split; [exact A|]; exists w; auto).
    destruct (M2 n u BV (L5 n u BV)) as [x [y [z [X1 [X2 [X3 [X4 [X5 X6]]]]]]]].
    destruct (IH L1 cp u eq_refl U1) as [I1 [I2 _]]. rewrite I1 in X1. injection X1 as <-. rewrite I2 in X3. injection X3 as <-.
    destruct (read_auto (i_bp i) n v c _ _ G A4 A3 X4 X6) as [R1 [R2 R3]]. split; [exact R1|]. split; [|exact R3].
    rewrite R2. destruct (snd t); cbn; try reflexivity. contradiction.
Qed.

(** * The context recorded by an instance: instantiateBlueprint, src/Algorithm.cpp 1301-1305. *)
Definition recorded (i : instance) (c : ctx) : instance := {| i_bp := i_bp i; i_spec := c; i_binds := i_binds i |}.

Section Recorded.
  Variables (p : bprint) (i : instance) (cp c : ctx).
  Notation b := (i_bp i).
  Hypothesis UO : unit_ok b.
  Hypothesis CS : cased (map v_name (ios b)).
  (** All the ports without type are specialized or bound to a known variable. *)
  Hypothesis CM : forall n, auto_port b n -> specialized i n \/ exists v, bound_var p i n v.
  (** sameas ports refer to ports. *)
  Hypothesis SO : forall v r, In v (ios b) -> given v -> reads b v r -> auto_port b r.
  Hypothesis MK : make_ctx p i cp = Ok c.

  Lemma has_kept b' n v d d' m : add_to_ctx b' n v d = Ok d' -> var_in_ctx m d = true -> var_in_ctx m d' = true.
  Proof.
    unfold add_to_ctx. intros H. destruct (var_bit_width b' v d); cbn [rbind] in H; try discriminate. destruct (var_init b' v (put d _ a)); cbn [rbind] in H; try discriminate.
    destruct (var_type b' v _); cbn [rbind] in H; try discriminate. injection H as <-.
    assert (K : forall e k x y, has e y = true -> has (put e k x) y = true) by (intros e k x y; unfold has, put; destruct (y =? k); [reflexivity|auto]).
    unfold var_in_ctx. intros H. apply andb_prop in H as [H H3]. apply andb_prop in H as [H1 H2]. rewrite !K; auto.
  Qed.
  Lemma has_added b' n v d d' : add_to_ctx b' n v d = Ok d' -> var_in_ctx n d' = true.
  Proof.
    intros H. destruct (add_spec _ _ _ _ _ H) as [[w [j [t [_ [_ [_ [H4 [H5 H6]]]]]]]] _]. unfold var_in_ctx, has. fold (kw n) (ki n) (ks n). now rewrite H4, H5, H6.
  Qed.
  Lemma params_has l d d' : add_params p i l d = Ok d' ->
    (forall m, var_in_ctx m d = true -> var_in_ctx m d' = true) /\ (forall n v, In n l -> bound_var p i n v -> var_in_ctx n d' = true).
  Proof.
    revert d. induction l as [|n l IH]; intros d H; cbn [add_params] in H.
    - injection H as <-. split; [auto|intros n v []].
    - assert (SKIP : (forall v, bound_var p i n v -> False) -> add_params p i l d = Ok d' ->
        (forall m, var_in_ctx m d = true -> var_in_ctx m d' = true) /\ (forall m v, In m (n :: l) -> bound_var p i m v -> var_in_ctx m d' = true)) by
        (intros NB H'; destruct (IH d H') as [K1 K2]; split; [exact K1|]; intros m v [<- |Hm] B; [now apply NB in B|now apply (K2 m v)]).
      destruct (var_in_ctx n (i_spec i)) eqn:SP. { apply SKIP; [|exact H]. intros v [B _]. now apply B. }
      destruct (get_vio b n) as [io|] eqn:G; [|discriminate]. destruct (v_same io =? "") eqn:SA.
      2:{ apply SKIP; [|exact H]. intros v [_ [[_ [v' [V1 [V2 _]]]] _]]. rewrite G in V1. injection V1 as <-. rewrite V2 in SA. discriminate. }
      destruct (bound_to n (i_binds i)) as [w|] eqn:BT; [|discriminate].
      destruct (get_vio p w) as [v|] eqn:GP.
      2:{ apply SKIP; [|exact H]. intros v [_ [_ [w' [W1 [W2 _]]]]]. rewrite BT in W1. injection W1 as <-. congruence. }
      destruct (v_table v) eqn:TB.
      { apply SKIP; [|exact H]. intros v' [_ [_ [w' [W1 [W2 W3]]]]]. rewrite BT in W1. injection W1 as <-. rewrite GP in W2. injection W2 as <-. congruence. }
      destruct (add_to_ctx p n v d) as [d1| |] eqn:AD; cbn [rbind] in H; try discriminate. destruct (IH d1 H) as [K1 K2]. split.
      + intros m Hm. apply K1. now apply (has_kept p n v d).
      + intros m u [<- |Hm] B; [apply K1; now apply (has_added p n v d)|now apply (K2 m u)].
  Qed.
  Lemma ios_has l d d' : add_ios b l d = Ok d' -> forall m, var_in_ctx m d = true -> var_in_ctx m d' = true.
  Proof.
    revert d. induction l as [|io l IH]; intros d H m Hm; cbn [add_ios] in H; [now injection H as <-|].
    destruct (_ || _); [|now apply (IH d)]. destruct (add_to_ctx b (v_name io) io d) as [d1| |] eqn:AD; cbn [rbind] in H; try discriminate.
    apply (IH d1 H). now apply (has_kept b (v_name io) io d).
  Qed.
  Lemma auto_has n : auto_port b n -> var_in_ctx n c = true.
  Proof.
    intros A. unfold make_ctx in MK. destruct (add_params p i (b_params b) (override cp (i_spec i))) as [c1| |] eqn:AP; cbn [rbind] in MK; try discriminate.
    assert (H1 : var_in_ctx n c1 = true).
    { destruct (params_has _ _ _ AP) as [K1 K2]. destruct (CM n A) as [S|[v B]]; [|apply (K2 n v); [apply A|exact B]].
      apply K1. unfold specialized, var_in_ctx in *. apply andb_prop in S as [S S3]. apply andb_prop in S as [S1 S2].
      assert (K : forall k, has (i_spec i) k = true -> has (override cp (i_spec i)) k = true) by (intros k; unfold has, override; destruct (i_spec i k); [reflexivity|discriminate]).
      now rewrite !K. }
    destruct (b_alg b); [|now injection MK as <-]. now apply (ios_has _ _ _ MK).
  Qed.

  Lemma again_params p' cx : add_params p' (recorded i c) (b_params b) (override cx c) = Ok (override cx c).
  Proof.
    assert (G : forall l, (forall n, In n l -> In n (b_params b)) -> add_params p' (recorded i c) l (override cx c) = Ok (override cx c)); [|now apply G].
    induction l as [|n l IH]; intros HL; [reflexivity|]. cbn [add_params recorded i_spec i_bp i_binds].
    assert (IH' : add_params p' (recorded i c) l (override cx c) = Ok (override cx c)) by (apply IH; intros m Hm; apply HL; now right).
    destruct (var_in_ctx n c) eqn:V; [exact IH'|]. destruct (u_prm _ UO n (HL n (or_introl eq_refl))) as [v [V1 [V2 [V3 V4]]]]. rewrite V3.
    destruct (v_same v =? "") eqn:S; [|exact IH']. exfalso. apply String.eqb_eq in S.
    rewrite auto_has in V; [discriminate|]. split; [apply HL; now left|]. exists v. auto.
  Qed.

  Lemma same_put d k v : d k = Some v -> forall x, put d k v x = d x.
  Proof. intros H x. unfold put. destruct (x =? k) eqn:E; [apply String.eqb_eq in E; now subst|reflexivity]. Qed.
  Lemma add_again n v d : holds d n b v d -> exists d', add_to_ctx b n v d = Ok d' /\ forall k, d' k = d k.
  Proof.
    intros [w [j [t [H1 [H2 [H3 [H4 [H5 H6]]]]]]]]. unfold add_to_ctx. fold (kw n) (ki n) (ks n). rewrite H1. cbn [rbind].
    assert (E1 : forall x, put d (kw n) w x = d x) by now apply same_put.
    rewrite (init_agree b v _ d); [|intros r _ k _; apply E1]. rewrite H2. cbn [rbind].
    assert (E2 : forall x, put (put d (kw n) w) (ki n) j x = d x) by (intros x; rewrite same_put; [apply E1|now rewrite E1]).
    rewrite (type_agree b v _ d); [|intros r _ k _; apply E2]. rewrite H3. cbn [rbind]. eexists. split; [reflexivity|].
    intros k. rewrite same_put; [apply E2|now rewrite E2].
  Qed.
  Lemma ios_again l d : (forall v, In v l -> given v -> holds d (v_name v) b v d) -> forall e, (forall k, e k = d k) -> exists e', add_ios b l e = Ok e' /\ forall k, e' k = d k.
  Proof.
    intros H. induction l as [|io l IH]; intros e E; cbn [add_ios]; [exists e; auto|].
    assert (IH' := IH (fun v Hv => H v (or_intror Hv))). destruct (negb (is_param io) || negb (v_same io =? "")) eqn:GV; [|now apply IH'].
    assert (GI : given io).
    { unfold given. apply orb_prop in GV as [GV|GV]; apply negb_true_iff in GV; [now left|right]. intros X. rewrite X in GV. discriminate. }
    assert (HO : holds e (v_name io) b io e).
    { apply (holds_agree _ _ _ _ d); [intros r _ k _; now rewrite E|]. apply (holds_ctx d); [intros k _; apply E|]. apply H; [now left|assumption]. }
    destruct (add_again _ _ _ HO) as [e1 [A1 A2]]. rewrite A1. cbn [rbind]. apply IH'. intros k. now rewrite A2.
  Qed.

  Lemma given_holds v : b_alg b = true -> In v (ios b) -> given v -> holds c (v_name v) b v c.
  Proof.
    intros AL Hv Gv. unfold make_ctx in MK. destruct (add_params p i (b_params b) (override cp (i_spec i))) as [c1| |] eqn:AP; cbn [rbind] in MK; try discriminate.
    rewrite AL in MK. destruct (ios_spec i CS (ios b) c1 c (fun v Hv => Hv) MK) as [I1 I2].
    destruct (I2 (u_ios _ UO) v Hv Gv) as [e [E1 E2]]. refine (holds_agree _ _ _ _ _ _ _ E1). intros r Hr k Hk. pose proof (SO v r Hv Gv Hr) as A.
    assert (N : forall u, In u (ios b) -> given u -> ~ keyof (v_name u) k).
    { intros u Hu Gu Ku. apply (auto_not_given i UO CS r u A Hu Gu). exact (keyof_upper _ _ _ Hk Ku). }
    now rewrite I1, E2.
  Qed.

  Theorem recorded_ok p' cx : exists c', make_ctx p' (recorded i c) cx = Ok c' /\ forall k, c' k = override cx c k.
  Proof.
    unfold make_ctx. cbn [recorded i_bp i_spec]. fold (recorded i c). rewrite again_params. cbn [rbind]. destruct (b_alg b) eqn:AL; [|eexists; split; [reflexivity|reflexivity]].
    fold (ios b). destruct (ios_again (ios b) (override cx c)) with (e := override cx c) as [e' [E1 E2]]; [|reflexivity|exists e'; auto].
    intros v Hv Gv. pose proof (given_holds v AL Hv Gv) as HO.
    assert (K : forall k x, c k = Some x -> override cx c k = Some x) by (intros k x; unfold override; now intros ->).
    assert (A : agree b v c (override cx c)).
    { intros r Hr k Hk. pose proof (auto_has r (SO v r Hv Gv Hr)) as V. unfold var_in_ctx, has in V. fold (kw r) (ki r) (ks r) in V.
      destruct (c (kw r)) eqn:A1; [|discriminate]. destruct (c (ki r)) eqn:A2; [|discriminate]. destruct (c (ks r)) eqn:A3; [|discriminate].
      symmetry. destruct Hk as [-> |[-> | ->]]; [rewrite A1|rewrite A2|rewrite A3]; now apply K. }
    apply (holds_agree _ _ _ _ c); [exact A|]. destruct HO as [w [j [t [H1 [H2 [H3 [H4 [H5 H6]]]]]]]]. exists w, j, t. repeat (split; [assumption|]). repeat split; now apply K.
  Qed.
End Recorded.
