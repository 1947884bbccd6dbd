(** C43: what the ports of an instance are connected to. *)
From Coq Require Import String List Bool Permutation.
Require Import Verif.PortModel.
Import ListNotations.
Open Scope string_scope.

Lemma mem_In : forall x l, mem x l = true <-> In x l.
Proof.
  intros x l. unfold mem. rewrite existsb_exists. split.
  - intros [y [H E]]. apply String.eqb_eq in E. subst. exact H.
  - intro H. exists x. split; [exact H|apply String.eqb_refl].
Qed.
Lemma mem_nIn : forall x l, mem x l = false <-> ~ In x l.
Proof. intros x l. rewrite <- mem_In. destruct (mem x l); split; congruence. Qed.

(** ** What the source says *)

(** The source of instance [i] connects its port [x] to [v]: [x] and [v] are written on the two sides of an operator,
    or are the same member of the two sides of a binding of groups. *)
Inductive says (a : alg) (i : inst) : string -> op -> string -> Prop :=
| says_port : forall x o v, In {| w_left := x; w_op := o; w_right := v |} (i_written i) ->
    o = OLeft \/ o = OLeftQ \/ o = ORight \/ (o = OBi /\ (In v (a_io a) \/ a_grp a v = None)) -> says a i x o v
| says_group : forall g o G ms m, In {| w_left := g; w_op := o; w_right := G |} (i_written i) ->
    o = OBi \/ o = OBiQ -> ~ In G (a_io a) -> a_grp a G = Some ms -> In m ms ->
    says a i (g ++ "_" ++ m) o (G ++ "_" ++ m).

(** The input [x] of the instance is asked to read [v], on the side Q if [q]. *)
Definition asks_in (a : alg) (i : inst) (x v : string) (q : bool) : Prop :=
  if q then says a i x OLeftQ v \/ says a i x OBiQ v else says a i x OLeft v \/ says a i x OBi v.
(** The output [x] of the instance is asked to drive [v]. *)
Definition asks_out (a : alg) (i : inst) (x v : string) : Prop :=
  says a i x ORight v \/ says a i x OBi v \/ says a i x OBiQ v.
Definition says_nothing (a : alg) (i : inst) (x : string) : Prop := forall o v, ~ says a i x o v.

(** Ports have distinct names. *)
Definition ports_ok (i : inst) : Prop := NoDup (bp_in (i_bp i) ++ bp_out (i_bp i) ++ bp_io (i_bp i)).

Lemma ports_disj : forall i x, ports_ok i ->
  (In x (bp_in (i_bp i)) -> ~ In x (bp_out (i_bp i)) /\ ~ In x (bp_io (i_bp i))) /\
  (In x (bp_out (i_bp i)) -> ~ In x (bp_in (i_bp i)) /\ ~ In x (bp_io (i_bp i))).
Proof.
  intros i x H. unfold ports_ok in H.
  assert (G : forall A B : list string, NoDup (A ++ B) -> In x A -> ~ In x B).
  { induction A as [|y A IH]; intros B N I; [destruct I|].
    cbn in N. inversion N as [|? ? N1 N2]; subst. destruct I as [-> |I].
    - intro J. apply N1. apply in_or_app. right. exact J.
    - apply IH; assumption. }
  assert (G2 : forall A B : list string, NoDup (A ++ B) -> NoDup B).
  { induction A as [|y A IH]; intros B N; [exact N|]. inversion N; subst. apply IH. assumption. }
  split; intro I.
  - specialize (G _ _ H I). rewrite in_app_iff in G. tauto.
  - split.
    + intro J. apply (G _ _ H J). apply in_or_app. left. exact I.
    + apply (G _ _ (G2 _ _ H) I).
Qed.

(** ** The bindings *)

Lemma get_bindings_In : forall a l r b, get_bindings a l = Some r -> In b r ->
  exists w ws, In w l /\ get_binding a w = Some ws /\ In b ws.
Proof.
  induction l as [|w l IH]; intros r b H I; cbn [get_bindings] in H.
  - injection H as <-. destruct I.
  - destruct (get_binding a w) as [x|] eqn:E; [|discriminate].
    destruct (get_bindings a l) as [y|] eqn:E2; [|discriminate]. injection H as <-.
    apply in_app_or in I. destruct I as [I|I].
    + exists w, x. split; [left; reflexivity|]. split; assumption.
    + destruct (IH y b eq_refl I) as [w' [ws [A [B C]]]]. exists w', ws. split; [right; exact A|]. split; assumption.
Qed.
Lemma get_bindings_all : forall a l r w, get_bindings a l = Some r -> In w l ->
  exists ws, get_binding a w = Some ws /\ incl ws r.
Proof.
  induction l as [|w' l IH]; intros r w H I; cbn [get_bindings] in H; [destruct I|].
  destruct (get_binding a w') as [x|] eqn:E; [|discriminate].
  destruct (get_bindings a l) as [y|] eqn:E2; [|discriminate]. injection H as <-.
  destruct I as [-> |I].
  - exists x. split; [exact E|]. apply incl_appl, incl_refl.
  - destruct (IH y w eq_refl I) as [ws [A B]]. exists ws. split; [exact A|]. apply incl_appr. exact B.
Qed.

(** The bindings made before directions are resolved, and what the source says. *)
Definition dir_of (o : op) (group : bool) : dir :=
  match o with OLeft => DLeft | OLeftQ => DLeftQ | ORight => DRight | OBi => if group then DAuto else DBi | OBiQ => DAutoQ end.
Lemma raw_says : forall a i r b, get_bindings a (i_written i) = Some r -> In b r ->
  exists o g, says a i (b_left b) o (b_right b) /\ b_dir b = dir_of o g.
Proof.
  intros a i r b H I. destruct (get_bindings_In _ _ _ _ H I) as [[x o v] [ws [A [B C]]]].
  unfold get_binding, group_of in B. cbn [w_op w_left w_right] in B.
  destruct o.
  1-3: injection B as <-; destruct C as [<- |[]]; cbn [b_left b_right b_dir mkb].
  - exists OLeft, false. split; [apply says_port; tauto|reflexivity].
  - exists OLeftQ, false. split; [apply says_port; tauto|reflexivity].
  - exists ORight, false. split; [apply says_port; tauto|reflexivity].
  - destruct (mem v (a_io a)) eqn:M.
    + injection B as <-. destruct C as [<- |[]]. exists OBi, false. cbn. split; [|reflexivity].
      apply says_port; [exact A|]. apply mem_In in M. tauto.
    + apply mem_nIn in M. destruct (a_grp a v) as [ms|] eqn:G.
      * injection B as <-. apply in_map_iff in C. destruct C as [m [<- C]].
        exists OBi, true. cbn [b_left b_right b_dir mkb dir_of]. split; [|reflexivity].
        eapply says_group; eauto.
      * injection B as <-. destruct C as [<- |[]]. exists OBi, false. cbn. split; [|reflexivity].
        apply says_port; [exact A|]. tauto.
  - destruct (mem v (a_io a)) eqn:M; [discriminate|]. apply mem_nIn in M.
    destruct (a_grp a v) as [ms|] eqn:G; [|discriminate].
    injection B as <-. apply in_map_iff in C. destruct C as [m [<- C]].
    exists OBiQ, true. cbn [b_left b_right b_dir mkb dir_of]. split; [|reflexivity].
    eapply says_group; eauto.
Qed.
Lemma says_raw : forall a i r x o v, get_bindings a (i_written i) = Some r -> says a i x o v ->
  exists g, In (mkb x v (dir_of o g)) r.
Proof.
  intros a i r x o v H S. destruct S as [x o v A C|g o G ms m A C M E I].
  - destruct (get_bindings_all _ _ _ _ H A) as [ws [B D]]. exists false. apply D.
    unfold get_binding, group_of in B. cbn [w_op w_left w_right] in B.
    destruct C as [-> |[-> |[-> |[-> C]]]]; try (injection B as <-; left; reflexivity).
    destruct (mem v (a_io a)) eqn:M; [injection B as <-; left; reflexivity|].
    apply mem_nIn in M. destruct C as [C|C]; [contradiction|]. rewrite C in B. injection B as <-. left. reflexivity.
  - destruct (get_bindings_all _ _ _ _ H A) as [ws [B D]]. exists true. apply D.
    unfold get_binding, group_of in B. cbn [w_op w_left w_right] in B. apply mem_nIn in M.
    destruct C as [-> | ->]; rewrite M, E in B; injection B as <-; apply in_map_iff; exists m; split; try assumption; reflexivity.
Qed.

(** Bindings of the instance, after all steps. *)
Definition resolved (a : alg) (i : inst) : list bnd :=
  match get_bindings a (i_written i) with Some r => resolve_dirs (i_bp i) r | None => [] end.
Lemma bindings_eq : forall a i l, bindings a i = Some l ->
  l = if i_auto i then autobind a (i_vars i) (i_bp i) (resolved a i) else resolved a i.
Proof. intros a i l H. unfold bindings in H. unfold resolved. destruct (get_bindings a (i_written i)); [|discriminate]. injection H as <-. reflexivity. Qed.
Lemma resolved_keep : forall a i l, bindings a i = Some l -> incl (resolved a i) l.
Proof.
  intros a i l H. rewrite (bindings_eq _ _ _ H). destruct (i_auto i); [|apply incl_refl].
  unfold autobind. apply incl_appl, incl_refl.
Qed.

Lemma resolve_left : forall p b c, In c (resolve_dir p b) -> b_left c = b_left b /\ b_right c = b_right b.
Proof.
  intros p b c H. unfold resolve_dir in H.
  destruct (b_dir b);
  repeat match goal with H : In _ (if ?t then _ else _) |- _ => destruct t end;
  cbn in H; (destruct H as [<- |[]] || destruct H); cbn; auto.
Qed.
Lemma resolved_says : forall a i b, In b (resolved a i) -> exists o, says a i (b_left b) o (b_right b).
Proof.
  intros a i b H. unfold resolved in H. destruct (get_bindings a (i_written i)) as [r|] eqn:E; [|destruct H].
  unfold resolve_dirs in H. apply in_flat_map in H. destruct H as [c [A B]].
  destruct (raw_says _ _ _ _ E A) as [o [g [S _]]]. destruct (resolve_left _ _ _ B) as [-> ->]. exists o. exact S.
Qed.

(** The direction a binding ends with. *)
Lemma resolved_in : forall a i b, ports_ok i -> In (b_left b) (bp_in (i_bp i)) ->
  In b (resolved a i) -> is_left (b_dir b) = true -> asks_in a i (b_left b) (b_right b) match b_dir b with DLeftQ => true | _ => false end.
Proof.
  intros a i b P X H L. unfold resolved in H. destruct (get_bindings a (i_written i)) as [r|] eqn:E; [|destruct H].
  apply in_flat_map in H. destruct H as [c [A B]].
  destruct (raw_says _ _ _ _ E A) as [o [g [S D]]]. destruct (resolve_left _ _ _ B) as [E1 E2].
  rewrite E1 in X. rewrite E1, E2. clear E1 E2. unfold resolve_dir in B. rewrite D in B. apply mem_In in X. rewrite X in B.
  unfold asks_in. destruct o; cbn [dir_of] in *; [| | |destruct g|];
  (destruct B as [B|[]]; subst b; [cbn [b_left b_right b_dir mkb] in *; try rewrite D in L; try rewrite D;
   try discriminate L; auto; left; assumption]).
Qed.
Lemma in_resolved : forall a i l x v q, bindings a i = Some l -> In x (bp_in (i_bp i)) -> asks_in a i x v q ->
  (exists b, In b (resolved a i) /\ b_left b = x /\ b_right b = v /\ (b_dir b = (if q then DLeftQ else DLeft) \/ (b_dir b = DBi))).
Proof.
  intros a i l x v q H X S. unfold resolved. unfold bindings in H.
  destruct (get_bindings a (i_written i)) as [r|] eqn:E; [|discriminate]. apply mem_In in X.
  assert (G : forall o, says a i x o v -> (o = if q then OLeftQ else OLeft) \/ (o = if q then OBiQ else OBi) ->
    exists b, In b (resolve_dirs (i_bp i) r) /\ b_left b = x /\ b_right b = v /\ (b_dir b = (if q then DLeftQ else DLeft) \/ (b_dir b = DBi))).
  { intros o S' O. destruct (says_raw _ _ _ _ _ _ E S') as [g I].
    assert (R : forall c, In c (resolve_dir (i_bp i) (mkb x v (dir_of o g))) -> In c (resolve_dirs (i_bp i) r)).
    { intros c C. apply in_flat_map. exists (mkb x v (dir_of o g)). split; assumption. }
    unfold resolve_dir in R. cbn [b_left b_right b_dir mkb] in R. rewrite X in R.
    destruct q, O as [-> | ->]; cbn [dir_of] in R.
    - exists (mkb x v DLeftQ). split; [apply R; left; reflexivity|]. cbn. auto.
    - exists (mkb x v DLeftQ). split; [apply R; left; reflexivity|]. cbn. auto.
    - exists (mkb x v DLeft). split; [apply R; left; reflexivity|]. cbn. auto.
    - destruct g.
      + exists (mkb x v DLeft). split; [apply R; left; reflexivity|]. cbn. auto.
      + exists (mkb x v DBi). split; [apply R; left; reflexivity|]. cbn. auto. }
  unfold asks_in in S. destruct q, S as [S|S]; apply (G _ S); auto.
Qed.
Lemma out_resolved : forall a i l x v, ports_ok i -> bindings a i = Some l -> In x (bp_out (i_bp i)) -> asks_out a i x v ->
  (exists b, In b (resolved a i) /\ b_left b = x /\ b_right b = v /\ (b_dir b = DRight \/ b_dir b = DBi)).
Proof.
  intros a i l x v P H X S. unfold resolved. unfold bindings in H.
  destruct (get_bindings a (i_written i)) as [r|] eqn:E; [|discriminate].
  destruct (proj2 (ports_disj i x P) X) as [N1 N2]. apply mem_nIn in N1. apply mem_In in X.
  assert (G : forall o, says a i x o v -> o = ORight \/ o = OBi \/ o = OBiQ ->
    exists b, In b (resolve_dirs (i_bp i) r) /\ b_left b = x /\ b_right b = v /\ (b_dir b = DRight \/ b_dir b = DBi)).
  { intros o S' O. destruct (says_raw _ _ _ _ _ _ E S') as [g I].
    assert (R : forall c, In c (resolve_dir (i_bp i) (mkb x v (dir_of o g))) -> In c (resolve_dirs (i_bp i) r)).
    { intros c C. apply in_flat_map. exists (mkb x v (dir_of o g)). split; assumption. }
    unfold resolve_dir in R. cbn [b_left b_right b_dir mkb] in R. rewrite N1, X in R.
    destruct O as [-> |[-> | ->]]; cbn [dir_of] in R.
    - exists (mkb x v DRight). split; [apply R; left; reflexivity|]. cbn. auto.
    - destruct g.
      + exists (mkb x v DRight). split; [apply R; left; reflexivity|]. cbn. auto.
      + exists (mkb x v DBi). split; [apply R; left; reflexivity|]. cbn. auto.
    - exists (mkb x v DRight). split; [apply R; left; reflexivity|]. cbn. auto. }
  destruct S as [S|[S|S]]; apply (G _ S); auto.
Qed.

(** ** Accepted designs *)

Lemma gather_In : forall a l r, gather a l = Some r -> map fst r = l /\ forall i bs, In (i, bs) r -> bindings a i = Some bs.
Proof.
  induction l as [|i l IH]; intros r H; cbn [gather] in H.
  - injection H as <-. split; [reflexivity|]. intros ? ? [].
  - destruct (bindings a i) as [bs|] eqn:B; [|discriminate]. destruct (gather a l) as [r'|] eqn:G; [|discriminate].
    injection H as <-. destruct (IH _ eq_refl) as [E F]. split; [cbn; rewrite E; reflexivity|].
    intros j cs [J|J]; [injection J as <- <-; exact B|]. apply F. exact J.
Qed.

Lemma compile_inv : forall a l r m, compile a l = Some (r, m) ->
  gather a l = Some r /\ (forall e, In e r -> check a (i_bp (fst e)) (snd e) = true) /\
  (forall e, In e r -> access_ok a (snd e) = true) /\
  bound_all r (flat_map own l) = Some m /\ (forall e, In e r -> inputs_ok a m e = true).
Proof.
  intros a l r m H. unfold compile in H. destruct (gather a l) as [r'|] eqn:G; [|discriminate].
  destruct (forallb _ r' && forallb _ r') eqn:F; [|discriminate].
  destruct (bound_all r' (flat_map own l)) as [m'|] eqn:B; [|discriminate].
  destruct (forallb (inputs_ok a m') r') eqn:I; [|discriminate]. injection H as -> ->.
  apply andb_prop in F. destruct F as [F1 F2]. rewrite forallb_forall in F1, F2, I.
  repeat split; auto.
Qed.
Lemma inst_In : forall a l r i, gather a l = Some r -> In i l -> exists bs, In (i, bs) r /\ bindings a i = Some bs.
Proof.
  intros a l r i G I. destruct (gather_In _ _ _ G) as [E F]. rewrite <- E in I. apply in_map_iff in I.
  destruct I as [[j bs] [J K]]. cbn in J. subst j. exists bs. split; [exact K|]. apply F. exact K.
Qed.

Lemma check1_dir : forall a p b, check1 a p b = true ->
  (is_left (b_dir b) = true -> In (b_left b) (bp_in p)) /\ (b_dir b = DRight -> In (b_left b) (bp_out p)) /\
  (b_dir b = DBi -> In (b_left b) (bp_io p)).
Proof.
  intros a p b H. unfold check1 in H. rewrite !andb_true_iff in H. destruct H as [[[[_ H1] H2] _] _].
  rewrite <- !mem_In. repeat split.
  - intro L. rewrite L in H1. exact H1.
  - intro D. rewrite D in H2. exact H2.
  - intro D. rewrite D in H2. exact H2.
Qed.

(** ** Inputs *)

Lemma bound_input_Some : forall l x v q, bound_input l x = Some (v, q) ->
  exists b, In b l /\ is_left (b_dir b) = true /\ b_left b = x /\ b_right b = v /\ q = match b_dir b with DLeftQ => true | _ => false end.
Proof.
  induction l as [|b l IH]; intros x v q H; cbn [bound_input] in H; [discriminate|].
  destruct (is_left (b_dir b) && String.eqb (b_left b) x) eqn:E.
  - apply andb_prop in E. destruct E as [E1 E2]. apply String.eqb_eq in E2. injection H as <- <-.
    exists b. repeat split; auto. left. reflexivity.
  - destruct (IH _ _ _ H) as [c [A B]]. exists c. split; [right; exact A|exact B].
Qed.
Lemma bound_input_None : forall l x, bound_input l x = None -> forall b, In b l -> is_left (b_dir b) = true -> b_left b <> x.
Proof.
  induction l as [|b l IH]; intros x H c I L; cbn [bound_input] in H; [destruct I|].
  destruct (is_left (b_dir b) && String.eqb (b_left b) x) eqn:E; [discriminate|].
  destruct I as [-> |I].
  - rewrite L in E. cbn in E. apply String.eqb_neq in E. exact E.
  - apply (IH _ H _ I L).
Qed.
Lemma bound_input_app : forall l k x, bound_input (l ++ k) x = match bound_input l x with Some e => Some e | None => bound_input k x end.
Proof.
  induction l as [|b l IH]; intros k x; [reflexivity|]. cbn [bound_input app].
  destruct (is_left (b_dir b) && String.eqb (b_left b) x); [reflexivity|]. apply IH.
Qed.
Lemma bound_input_auto : forall d cands l x, bound_input (flat_map (auto1 d cands DLeft) l) x =
  if mem x l && negb (mem x d) && mem x cands then Some (x, false) else None.
Proof.
  intros d cands l x. induction l as [|y l IH]; [reflexivity|]. cbn [flat_map]. rewrite bound_input_app, IH.
  assert (E0 : mem x (y :: l) = String.eqb x y || mem x l) by reflexivity. rewrite E0. clear E0.
  unfold auto1. destruct (String.eqb x y) eqn:E.
  - apply String.eqb_eq in E. subst y. cbn [orb andb].
    destruct (mem x d), (mem x cands), (mem x l); cbn [negb andb bound_input]; try reflexivity;
      cbn [mkb b_dir b_left b_right is_left andb]; rewrite String.eqb_refl; reflexivity.
  - cbn [orb].
    assert (N : bound_input (if mem y d then [] else if mem y cands then [mkb y y DLeft] else []) x = None).
    { destruct (mem y d); [reflexivity|]. destruct (mem y cands); [|reflexivity]. cbn. rewrite String.eqb_sym in E. rewrite E. reflexivity. }
    rewrite N. reflexivity.
Qed.
Lemma bound_input_noleft : forall d cands D l x, is_left D = false -> bound_input (flat_map (auto1 d cands D) l) x = None.
Proof.
  intros d cands D l x H. induction l as [|y l IH]; [reflexivity|]. cbn [flat_map]. rewrite bound_input_app, IH.
  unfold auto1. destruct (mem y d); [reflexivity|]. destruct (mem y cands); [|reflexivity]. cbn. rewrite H. reflexivity.
Qed.
(** Which binding an input gets. *)
Lemma bound_input_bindings : forall a i l x, bindings a i = Some l -> In x (bp_in (i_bp i)) ->
  bound_input l x = match bound_input (resolved a i) x with
    | Some e => Some e
    | None => if i_auto i && negb (mem x (map b_left (resolved a i))) && (mem x (a_in a ++ i_vars i)%list || mem x ["clock"; "reset"])
              then Some (x, false) else None
    end.
Proof.
  intros a i l x H X. rewrite (bindings_eq _ _ _ H). destruct (i_auto i); [|cbn [andb]; destruct (bound_input (resolved a i) x); reflexivity].
  unfold autobind. rewrite !bound_input_app, !bound_input_auto, !bound_input_noleft by reflexivity.
  apply mem_In in X. rewrite X. cbn [andb].
  destruct (bound_input (resolved a i) x) as [e|]; [reflexivity|].
  destruct (mem x (map b_left (resolved a i))); cbn [negb andb]; [rewrite !andb_false_r; reflexivity|].
  destruct (mem x (a_in a ++ i_vars i)); cbn [orb]; [reflexivity|].
  rewrite !andb_true_r. destruct (mem x ["clock"; "reset"]); reflexivity.
Qed.

(** ** C43, inputs *)

(** In an accepted design, an input that the source connects, always to the same name, reads this name. *)
Theorem C43_input_partial : forall a l r m i bs x v q,
  compile a l = Some (r, m) -> In (i, bs) r -> ports_ok i -> In x (bp_in (i_bp i)) ->
  asks_in a i x v q -> (forall v' q', asks_in a i x v' q' -> v' = v /\ q' = q) ->
  input_net a m i bs x = read a m v q.
Proof.
  intros a l r m i bs x v q H I P X S U.
  destruct (compile_inv _ _ _ _ H) as [G [C [_ [_ Q]]]].
  destruct (gather_In _ _ _ G) as [_ F]. specialize (F _ _ I). specialize (C _ I). cbn [fst snd] in C.
  unfold check in C. apply andb_prop in C. destruct C as [C _]. rewrite forallb_forall in C.
  specialize (Q _ I). unfold inputs_ok in Q. rewrite forallb_forall in Q. specialize (Q _ X). cbn [fst snd] in Q.
  assert (B : bound_input bs x = Some (v, q)).
  { rewrite (bound_input_bindings _ _ _ _ F X).
    destruct (bound_input (resolved a i) x) as [[v' q']|] eqn:E.
    - destruct (bound_input_Some _ _ _ _ E) as [b [B1 [B2 [B3 [B4 B5]]]]]. subst x v' q'.
      destruct (U _ _ (resolved_in _ _ _ P X B1 B2)) as [-> ->]. reflexivity.
    - exfalso. destruct (in_resolved _ _ _ _ _ _ F X S) as [b [B1 [B2 [B3 B4]]]].
      destruct B4 as [B4|B4].
      + refine (bound_input_None _ _ E _ B1 _ B2). rewrite B4. destruct q; reflexivity.
      + destruct (check1_dir _ _ _ (C _ (resolved_keep _ _ _ F _ B1))) as [_ [_ D]]. specialize (D B4). rewrite B2 in D.
        apply (proj1 (ports_disj i x P)) in X. tauto. }
  unfold input_net in *. rewrite B in *.
  destruct (q && _); [discriminate|reflexivity].
Qed.

(** An input the source does not mention reads the input, else the variable declared before, of the same name
    if [<:auto:>] is given, and else has a variable of its own, named after the instance. *)
Theorem C43_unbound_partial : forall a l r m i bs x,
  compile a l = Some (r, m) -> In (i, bs) r -> In x (bp_in (i_bp i)) -> says_nothing a i x ->
  (i_auto i = true -> In x (a_in a) \/ In x (i_vars i) \/ x = "clock" \/ x = "reset" -> input_net a m i bs x = read a m x false) /\
  (i_auto i = false \/ ~ (In x (a_in a) \/ In x (i_vars i) \/ x = "clock" \/ x = "reset") ->
     exists q, input_net a m i bs x = Some (NOwn ("_" ++ i_name i ++ "_" ++ x) q) /\ (q = true <-> bp_callable (i_bp i) = true \/ i_reg i = true)).
Proof.
  intros a l r m i bs x H I X S.
  destruct (compile_inv _ _ _ _ H) as [G _]. destruct (gather_In _ _ _ G) as [_ F]. specialize (F _ _ I).
  assert (N : mem x (map b_left (resolved a i)) = false).
  { apply mem_nIn. intro J. apply in_map_iff in J. destruct J as [b [<- J]].
    destruct (resolved_says _ _ _ J) as [o O]. exact (S _ _ O). }
  assert (N2 : bound_input (resolved a i) x = None).
  { destruct (bound_input (resolved a i) x) as [[v q]|] eqn:E; [|reflexivity].
    destruct (bound_input_Some _ _ _ _ E) as [b [B1 [_ [B3 _]]]]. exfalso. apply mem_nIn in N. apply N.
    rewrite <- B3. apply in_map. exact B1. }
  pose proof (bound_input_bindings _ _ _ _ F X) as B. rewrite N2, N in B. cbn [negb] in B. rewrite andb_true_r in B.
  assert (M : mem x (a_in a ++ i_vars i)%list || mem x ["clock"; "reset"] = true <-> In x (a_in a) \/ In x (i_vars i) \/ x = "clock" \/ x = "reset").
  { rewrite orb_true_iff, !mem_In, in_app_iff. cbn. intuition. }
  unfold input_net. split.
  - intros A J. apply M in J. rewrite A, J in B. rewrite B. reflexivity.
  - intro J. assert (E : bound_input bs x = None).
    { rewrite B. destruct (i_auto i) eqn:A; [|reflexivity]. destruct J as [J|J]; [discriminate|].
      cbn [andb]. destruct (mem x (a_in a ++ i_vars i)%list || _) eqn:K; [|reflexivity]. exfalso. apply J, M. reflexivity. }
    rewrite E. eexists. split; [reflexivity|]. destruct (bp_callable (i_bp i)), (i_reg i); cbn; intuition congruence.
Qed.

(** ** Outputs *)

Definition drives (l : list bnd) (v : string) : Prop := exists b, In b l /\ b_dir b = DRight /\ b_right b = v.

Lemma lookup_In : forall x m e, lookup x m = Some e -> In (x, e) m.
Proof.
  induction m as [|[y f] m IH]; intros e H; cbn [lookup] in H; [discriminate|].
  destruct (String.eqb x y) eqn:E.
  - apply String.eqb_eq in E. injection H as ->. subst. left. reflexivity.
  - right. apply IH. exact H.
Qed.

(** What is recorded, and kept. *)
Lemma bound1_spec : forall n l m m', bound1 n l m = Some m' ->
  (forall x e, lookup x m = Some e -> lookup x m' = Some e) /\
  (forall b, In b l -> b_dir b = DRight -> lookup (b_right b) m' = Some (n, b_left b) /\ lookup (b_right b) m = None) /\
  (forall x e, lookup x m' = Some e -> lookup x m = Some e \/ exists b, In b l /\ b_dir b = DRight /\ b_right b = x /\ e = (n, b_left b)).
Proof.
  induction l as [|b l IH]; intros m m' H; cbn [bound1] in H.
  - injection H as <-. split; [auto|]. split; [intros ? []|]. auto.
  - destruct (b_dir b) eqn:D.
    3: { destruct (lookup (b_right b) m) eqn:L; [discriminate|]. destruct (IH _ _ H) as [A [B C]].
      assert (K : forall x e, lookup x m = Some e -> lookup x ((b_right b, (n, b_left b)) :: m) = Some e).
      { intros x e E. cbn [lookup]. destruct (String.eqb x (b_right b)) eqn:Q; [|exact E]. apply String.eqb_eq in Q. subst. congruence. }
      split; [intros x e E; apply A, K, E|]. split.
      - intros c [<- |I] E.
        + split; [|exact L]. apply A. cbn [lookup]. rewrite String.eqb_refl. reflexivity.
        + destruct (B _ I E) as [B1 B2]. split; [exact B1|]. cbn [lookup] in B2. destruct (String.eqb (b_right c) (b_right b)); [discriminate|exact B2].
      - intros x e E. destruct (C _ _ E) as [F|[c [F1 F2]]].
        + cbn [lookup] in F. destruct (String.eqb x (b_right b)) eqn:Q.
          * apply String.eqb_eq in Q. injection F as <-. right. exists b. split; [left; reflexivity|]. auto.
          * left. exact F.
        + right. exists c. split; [right; exact F1|exact F2]. }
    3: { destruct (lookup (b_right b) m) eqn:L; [discriminate|]. destruct (IH _ _ H) as [A [B C]].
      split; [exact A|]. split.
      - intros c [<- |I] E; [congruence|apply B; assumption].
      - intros x e E. destruct (C _ _ E) as [F|[c [F1 F2]]]; [left; exact F|]. right. exists c. split; [right; exact F1|exact F2]. }
    all: destruct (IH _ _ H) as [A [B C]]; split; [exact A|]; split;
      [intros c [<- |I] E; [congruence|apply B; assumption]
      |intros x e E; destruct (C _ _ E) as [F|[c [F1 F2]]]; [left; exact F|]; right; exists c; split; [right; exact F1|exact F2]].
Qed.
Lemma bound_all_spec : forall l m m', bound_all l m = Some m' ->
  (forall x e, lookup x m = Some e -> lookup x m' = Some e) /\
  (forall i bs b, In (i, bs) l -> In b bs -> b_dir b = DRight -> lookup (b_right b) m' = Some (i_name i, b_left b) /\ lookup (b_right b) m = None) /\
  (forall x e, lookup x m' = Some e -> lookup x m = Some e \/ exists i bs b, In (i, bs) l /\ In b bs /\ b_dir b = DRight /\ b_right b = x /\ e = (i_name i, b_left b)).
Proof.
  induction l as [|[i bs] l IH]; intros m m' H; cbn [bound_all] in H.
  - injection H as <-. split; [auto|]. split; [intros ? ? ? []|]. auto.
  - destruct (bound1 (i_name i) bs m) as [m1|] eqn:E; [|discriminate].
    destruct (bound1_spec _ _ _ _ E) as [A [B C]]. destruct (IH _ _ H) as [A' [B' C']].
    split; [intros; apply A', A; assumption|]. split.
    + intros j cs b [J|J] K D.
      * injection J as <- <-. destruct (B _ K D) as [B1 B2]. split; [apply A', B1|exact B2].
      * destruct (B' _ _ _ J K D) as [B1 B2]. split; [exact B1|].
        destruct (lookup (b_right b) m) eqn:L; [|reflexivity]. rewrite (A _ _ L) in B2. discriminate.
    + intros x e L. destruct (C' _ _ L) as [F|[j [cs [b [F1 F2]]]]].
      * destruct (C _ _ F) as [F'|[b [F1 F2]]]; [left; exact F'|]. right. exists i, bs, b. split; [left; reflexivity|]. split; assumption.
      * right. exists j, cs, b. split; [right; exact F1|exact F2].
Qed.

(** The binding of an output, written or made by [<:auto:>]. *)
Definition out_to (a : alg) (i : inst) (o v : string) : Prop :=
  In o (bp_out (i_bp i)) /\
  (asks_out a i o v \/ (i_auto i = true /\ says_nothing a i o /\ v = o /\ (In o (a_out a) \/ In o (i_vars i)))).

Lemma out_bound : forall a l r m i bs o v, compile a l = Some (r, m) -> In (i, bs) r -> ports_ok i -> out_to a i o v ->
  exists b, In b bs /\ b_dir b = DRight /\ b_left b = o /\ b_right b = v.
Proof.
  intros a l r m i bs o v H I P [O S].
  destruct (compile_inv _ _ _ _ H) as [G [C _]]. destruct (gather_In _ _ _ G) as [_ F]. specialize (F _ _ I).
  specialize (C _ I). cbn [fst snd] in C. unfold check in C. apply andb_prop in C. destruct C as [C _]. rewrite forallb_forall in C.
  destruct S as [S|[A [S [-> J]]]].
  - destruct (out_resolved _ _ _ _ _ P F O S) as [b [B1 [B2 [B3 B4]]]]. pose proof (resolved_keep _ _ _ F _ B1) as K.
    destruct B4 as [B4|B4]; [exists b; auto|].
    destruct (check1_dir _ _ _ (C _ K)) as [_ [_ D]]. specialize (D B4). rewrite B2 in D.
    apply (proj2 (ports_disj i o P)) in O. tauto.
  - rewrite (bindings_eq _ _ _ F), A. exists (mkb o o DRight). split; [|auto]. unfold autobind.
    apply in_or_app. right. apply in_or_app. right. apply in_or_app. right. apply in_or_app. left.
    apply in_flat_map. exists o. split; [exact O|]. unfold auto1.
    assert (N : mem o (map b_left (resolved a i)) = false).
    { apply mem_nIn. intro X. apply in_map_iff in X. destruct X as [b [<- X]].
      destruct (resolved_says _ _ _ X) as [q Q]. exact (S _ _ Q). }
    rewrite N. assert (M : mem o (a_out a ++ i_vars i)%list = true) by (apply mem_In, in_app_iff; exact J).
    rewrite M. left. reflexivity.
Qed.

(** ** C43, outputs *)

(** In an accepted design, a variable or output that the source connects to the output of an instance reads this output,
    it is not connected to another output, and is not written by the algorithm. *)
Theorem C43_output_partial : forall a l r m i bs o v,
  compile a l = Some (r, m) -> In (i, bs) r -> ports_ok i -> out_to a i o v ->
  ~ In v (a_in a) -> ~ In v (a_io a) -> v <> "clock" -> v <> "reset" ->
  (forall q, read a m v q = Some (NWire (i_name i) o)) /\ (In v (a_var a ++ a_out a) -> ~ In v (a_writes a)).
Proof.
  intros a l r m i bs o v H I P O N1 N2 N3 N4.
  destruct (out_bound _ _ _ _ _ _ _ _ H I P O) as [b [B1 [B2 [B3 B4]]]].
  destruct (compile_inv _ _ _ _ H) as [_ [_ [W [B _]]]]. destruct (bound_all_spec _ _ _ B) as [_ [L _]].
  destruct (L _ _ _ I B1 B2) as [L1 _]. rewrite B4, B3 in L1. split.
  - intro q. unfold read. apply mem_nIn in N1. apply mem_nIn in N2. rewrite N1, N2, L1.
    assert (E : mem v ["clock"; "reset"] = false) by (apply mem_nIn; cbn; intuition congruence). rewrite E.
    destruct (mem v [a_reset a; a_clock a]); reflexivity.
  - intros V X. specialize (W _ I). cbn [snd] in W. unfold access_ok in W. rewrite forallb_forall in W. specialize (W _ B1).
    rewrite B2, B4 in W. apply mem_In in V. apply mem_In in X. rewrite V, X in W. discriminate W.
Qed.

(** A name is connected to at most one output. *)
Theorem C43_one_driver_partial : forall a l r m i bs o j cs o' v,
  compile a l = Some (r, m) -> In (i, bs) r -> In (j, cs) r -> ports_ok i -> ports_ok j ->
  out_to a i o v -> out_to a j o' v -> i_name i = i_name j /\ o = o'.
Proof.
  intros a l r m i bs o j cs o' v H I J P P' O O'.
  destruct (out_bound _ _ _ _ _ _ _ _ H I P O) as [b [B1 [B2 [B3 B4]]]].
  destruct (out_bound _ _ _ _ _ _ _ _ H J P' O') as [c [C1 [C2 [C3 C4]]]].
  destruct (compile_inv _ _ _ _ H) as [_ [_ [_ [B _]]]]. destruct (bound_all_spec _ _ _ B) as [_ [L _]].
  destruct (L _ _ _ I B1 B2) as [L1 _]. destruct (L _ _ _ J C1 C2) as [L2 _]. rewrite B4 in L1. rewrite C4 in L2. split; congruence.
Qed.

(** Two instances connected through a name: the input of the second is the output of the first. *)
Theorem C43_chain_partial : forall a l r m i bs o j cs x v,
  compile a l = Some (r, m) -> In (i, bs) r -> In (j, cs) r -> ports_ok i -> ports_ok j ->
  out_to a i o v -> ~ In v (a_in a) -> ~ In v (a_io a) -> v <> "clock" -> v <> "reset" ->
  In x (bp_in (i_bp j)) -> (exists q, asks_in a j x v q) ->
  (forall v' q q', asks_in a j x v' q -> asks_in a j x v q' -> v' = v /\ q = q') ->
  input_net a m j cs x = Some (NWire (i_name i) o).
Proof.
  intros a l r m i bs o j cs x v H I J P P' O N1 N2 N3 N4 X [q S] U.
  rewrite (C43_input_partial _ _ _ _ _ _ _ _ _ H J P' X S).
  - apply (proj1 (C43_output_partial _ _ _ _ _ _ _ _ H I P O N1 N2 N3 N4)).
  - intros v' q' S'. destruct (U _ _ _ S' S) as [-> ->]. auto.
Qed.

(** A binding written with the operator of another kind of port is refused. *)
Theorem C43_direction_partial : forall a l r m i x o v,
  compile a l = Some (r, m) -> In i l -> In {| w_left := x; w_op := o; w_right := v |} (i_written i) ->
  match o with
  | OLeft | OLeftQ => In x (bp_in (i_bp i))
  | ORight => In x (bp_out (i_bp i))
  | OBi => ~ In v (a_io a) /\ a_grp a v <> None \/ In x (bp_io (i_bp i))
  | OBiQ => ~ In v (a_io a) /\ a_grp a v <> None
  end.
Proof.
  intros a l r m i x o v H I W. destruct (compile_inv _ _ _ _ H) as [G [C _]].
  destruct (inst_In _ _ _ _ G I) as [bs [J B]]. specialize (C _ J). cbn [fst snd] in C.
  unfold check in C. apply andb_prop in C. destruct C as [C _]. rewrite forallb_forall in C.
  pose proof (resolved_keep _ _ _ B) as K. unfold resolved in K. unfold bindings in B.
  destruct (get_bindings a (i_written i)) as [raw|] eqn:E; [|discriminate].
  destruct (get_bindings_all _ _ _ _ E W) as [ws [D N]].
  assert (T : forall d, ws = [mkb x v d] -> d <> DAuto -> d <> DAutoQ -> check1 a (i_bp i) (mkb x v d) = true).
  { intros d -> D1 D2. apply C, K. apply in_flat_map. exists (mkb x v d). split; [apply N; left; reflexivity|].
    unfold resolve_dir. cbn [b_dir mkb]. destruct d; try (left; reflexivity); congruence. }
  unfold get_binding, group_of in D. cbn [w_op w_left w_right] in D.
  destruct o.
  1-3: injection D as <-; specialize (T _ eq_refl ltac:(discriminate) ltac:(discriminate)); apply check1_dir in T; cbn in T; tauto.
  - destruct (mem v (a_io a)) eqn:M.
    + right. injection D as <-. specialize (T _ eq_refl ltac:(discriminate) ltac:(discriminate)). apply check1_dir in T. cbn in T. tauto.
    + apply mem_nIn in M. destruct (a_grp a v) eqn:Gv; [left; split; [exact M|discriminate]|].
      right. injection D as <-. specialize (T _ eq_refl ltac:(discriminate) ltac:(discriminate)). apply check1_dir in T. cbn in T. tauto.
  - destruct (mem v (a_io a)) eqn:M; [discriminate|]. apply mem_nIn in M.
    destruct (a_grp a v) eqn:Gv; [split; [exact M|discriminate]|discriminate].
Qed.

(** Accepted bindings name things that exist; an instance does not read a name its own output drives (inouts aside);
    outputs and combinational outputs are not mixed. *)
Definition known (a : alg) (v : string) : Prop :=
  In v (a_in a) \/ In v (a_out a) \/ In v (a_io a) \/ In v (a_var a) \/ In v ["clock"; "reset"; a_clock a; a_reset a].
Lemma in_bound : forall a l r m i bs x v q, compile a l = Some (r, m) -> In (i, bs) r -> ports_ok i -> In x (bp_in (i_bp i)) -> asks_in a i x v q ->
  exists b, In b bs /\ is_left (b_dir b) = true /\ b_left b = x /\ b_right b = v.
Proof.
  intros a l r m i bs x v q H I P X S.
  destruct (compile_inv _ _ _ _ H) as [G [C _]]. destruct (gather_In _ _ _ G) as [_ F]. specialize (F _ _ I).
  specialize (C _ I). cbn [fst snd] in C. unfold check in C. apply andb_prop in C. destruct C as [C _]. rewrite forallb_forall in C.
  destruct (in_resolved _ _ _ _ _ _ F X S) as [b [B1 [B2 [B3 B4]]]]. pose proof (resolved_keep _ _ _ F _ B1) as K.
  destruct B4 as [B4|B4]; [exists b; rewrite B4; destruct q; auto|].
  destruct (check1_dir _ _ _ (C _ K)) as [_ [_ D]]. specialize (D B4). rewrite B2 in D.
  apply (proj1 (ports_disj i x P)) in X. tauto.
Qed.
Theorem C43_checks_partial : forall a l r m i bs,
  compile a l = Some (r, m) -> In (i, bs) r -> ports_ok i ->
  (forall x v q, In x (bp_in (i_bp i)) -> asks_in a i x v q -> known a v) /\
  (forall o v, out_to a i o v -> known a v) /\
  (forall x o v q, In x (bp_in (i_bp i)) -> asks_in a i x v q -> out_to a i o v -> In v (a_io a)) /\
  (forall o v c, out_to a i o v -> In v (a_out a) -> bp_comb (i_bp i) = Some c -> a_comb a v = c o).
Proof.
  intros a l r m i bs H I P. destruct (compile_inv _ _ _ _ H) as [_ [C _]].
  specialize (C _ I). cbn [fst snd] in C. unfold check in C. apply andb_prop in C. destruct C as [C D]. rewrite forallb_forall in C, D.
  assert (K : forall b, In b bs -> known a (b_right b)).
  { intros b J. specialize (C _ J). unfold check1 in C. rewrite !andb_true_iff in C. destruct C as [[_ C] _].
    apply mem_In in C. rewrite !in_app_iff in C. exact C. }
  split; [|split; [|split]].
  - intros x v q X S. destruct (in_bound _ _ _ _ _ _ _ _ _ H I P X S) as [b [B1 [_ [_ <-]]]]. apply K. exact B1.
  - intros o v O. destruct (out_bound _ _ _ _ _ _ _ _ H I P O) as [b [B1 [_ [_ <-]]]]. apply K. exact B1.
  - intros x o v q X S O. destruct (in_bound _ _ _ _ _ _ _ _ _ H I P X S) as [b [B1 [B2 [_ B4]]]].
    destruct (out_bound _ _ _ _ _ _ _ _ H I P O) as [c [C1 [C2 [_ C4]]]].
    specialize (D _ C1). rewrite C2, C4 in D. apply orb_prop in D. destruct D as [D|D]; [|apply mem_In; exact D].
    exfalso. assert (M : mem v (inbound bs) = true); [|rewrite M in D; discriminate D].
    apply mem_In. unfold inbound. rewrite <- B4. apply in_map. apply filter_In. auto.
  - intros o v c O V E. destruct (out_bound _ _ _ _ _ _ _ _ H I P O) as [b [B1 [B2 [B3 B4]]]].
    specialize (C _ B1). unfold check1 in C. rewrite !andb_true_iff in C. destruct C as [_ C]. rewrite E, B3, B4 in C.
    destruct O as [O _]. apply mem_In in O. apply mem_In in V. rewrite O, V in C. apply Bool.eqb_prop. exact C.
Qed.
(** With [<::] the flip-flop of a variable or output is read, never anything else. *)
Theorem C43_registered_partial : forall a l r m i bs x v,
  compile a l = Some (r, m) -> In (i, bs) r -> ports_ok i -> In x (bp_in (i_bp i)) ->
  asks_in a i x v true -> (forall v' q', asks_in a i x v' q' -> v' = v /\ q' = true) ->
  v <> "clock" -> v <> "reset" -> v <> a_clock a -> v <> a_reset a ->
  input_net a m i bs x = Some (NOwn v true).
Proof.
  intros a l r m i bs x v H I P X S U N1 N2 N3 N4.
  pose proof (C43_input_partial _ _ _ _ _ _ _ _ _ H I P X S U) as E.
  destruct (compile_inv _ _ _ _ H) as [_ [_ [_ [_ Q]]]]. specialize (Q _ I). unfold inputs_ok in Q. rewrite forallb_forall in Q.
  specialize (Q _ X). cbn [fst snd] in Q. rewrite E.
  assert (M1 : mem v ["clock"; "reset"] = false) by (apply mem_nIn; cbn; intuition congruence).
  assert (M2 : mem v [a_reset a; a_clock a] = false) by (apply mem_nIn; cbn; intuition congruence).
  assert (B : bound_input bs x = Some (v, true)).
  { destruct (bound_input bs x) as [[v' q']|] eqn:B.
    - destruct (compile_inv _ _ _ _ H) as [G _]. destruct (gather_In _ _ _ G) as [_ F]. specialize (F _ _ I).
      rewrite (bound_input_bindings _ _ _ _ F X) in B.
      destruct (bound_input (resolved a i) x) as [[v2 q2]|] eqn:B2.
      + injection B as <- <-. destruct (bound_input_Some _ _ _ _ B2) as [b [B3 [B4 [B5 [B6 B7]]]]]. subst x v2 q2.
        destruct (U _ _ (resolved_in _ _ _ P X B3 B4)) as [-> ->]. reflexivity.
      + exfalso. destruct (mem x (map b_left (resolved a i))) eqn:M.
        * cbn [negb] in B. rewrite andb_false_r in B. discriminate B.
        * apply mem_nIn in M. apply M. destruct (in_resolved _ _ _ _ _ _ F X S) as [b [A1 [A2 _]]]. rewrite <- A2. apply in_map. exact A1.
    - exfalso. destruct (in_bound _ _ _ _ _ _ _ _ _ H I P X S) as [b [B1 [B2 [B3 _]]]]. exact (bound_input_None _ _ B _ B1 B2 B3). }
  unfold input_net in Q. rewrite B in Q. cbn [andb] in Q. unfold read. rewrite M1, M2.
  destruct (lookup v m); [discriminate Q|]. destruct (mem v (a_in a)); [discriminate Q|]. destruct (mem v (a_io a)); [discriminate Q|]. reflexivity.
Qed.

(** ** The order of the instances does not matter *)

Lemma gather_perm : forall a l l', Permutation l l' -> forall r, gather a l = Some r -> exists r', gather a l' = Some r' /\ Permutation r r'.
Proof.
  induction 1 as [|i l l' _ IH|i j l|l1 l2 l3 _ IH1 _ IH2]; intros r H.
  - exists r. split; [exact H|apply Permutation_refl].
  - cbn [gather] in *. destruct (bindings a i); [|discriminate]. destruct (gather a l) as [r1|]; [|discriminate]. injection H as <-.
    destruct (IH _ eq_refl) as [r2 [-> Q]]. eexists. split; [reflexivity|]. constructor. exact Q.
  - cbn [gather] in *. destruct (bindings a i), (bindings a j), (gather a l); try discriminate. injection H as <-.
    eexists. split; [reflexivity|]. constructor.
  - destruct (IH1 _ H) as [r2 [H2 P2]]. destruct (IH2 _ H2) as [r3 [H3 P3]]. exists r3. split; [exact H3|]. eapply Permutation_trans; eassumption.
Qed.

Definition targets (l : list bnd) : list string := map b_right (filter (fun b => match b_dir b with DRight => true | _ => false end) l).
Definition noinout (l : list bnd) : Prop := forall b, In b l -> b_dir b <> DBi.
Lemma lookup_None : forall x m, lookup x m = None <-> ~ In x (map fst m).
Proof.
  induction m as [|[y e] m IH]; cbn [lookup map fst]; [split; auto|].
  destruct (String.eqb x y) eqn:E.
  - apply String.eqb_eq in E. subst. split; [discriminate|]. intro H. exfalso. apply H. left. reflexivity.
  - apply String.eqb_neq in E. rewrite IH. cbn. split; [intros H [J|J]; [congruence|auto]|intros H J; apply H; right; exact J].
Qed.
(** When names are accepted. *)
Lemma bound1_some : forall n l m, noinout l ->
  (exists m', bound1 n l m = Some m') <-> (NoDup (targets l) /\ forall x, In x (targets l) -> ~ In x (map fst m)).
Proof.
  induction l as [|b l IH]; intros m NI.
  - cbn. split; [intros _; split; [constructor|intros ? []]|]. intros _. eauto.
  - assert (NI' : noinout l) by (intros c I; apply NI; right; exact I).
    unfold targets. cbn [bound1 filter]. destruct (b_dir b) eqn:D; try (apply (IH m NI')); [|exfalso; apply (NI b); [left; reflexivity|exact D]].
    cbn [map]. fold (targets l). destruct (lookup (b_right b) m) as [e|] eqn:L.
    + split; [intros [? H]; discriminate|]. intros [_ H]. exfalso. apply (H (b_right b)); [left; reflexivity|].
      apply lookup_In in L. apply in_map_iff. exists (b_right b, e). auto.
    + apply lookup_None in L. rewrite (IH _ NI'). cbn [map fst]. split.
      * intros [N H]. split; [constructor; [|exact N]; intro I; apply (H _ I); left; reflexivity|].
        intros x [<- |I]; [exact L|]. intro J. apply (H _ I). right. exact J.
      * intros [N H]. inversion N as [|? ? N1 N2]; subst. split; [exact N2|]. intros x I [<- |J]; [contradiction|]. apply (H x); [right; exact I|exact J].
Qed.
Lemma bound1_fst : forall n l m m', bound1 n l m = Some m' -> Permutation (map fst m') (targets l ++ map fst m).
Proof.
  induction l as [|b l IH]; intros m m' H; cbn [bound1] in H.
  - injection H as <-. apply Permutation_refl.
  - unfold targets. cbn [filter]. destruct (b_dir b); try (apply IH; exact H).
    + destruct (lookup (b_right b) m); [discriminate|]. cbn [map]. fold (targets l). apply IH in H. cbn [map fst] in H.
      eapply Permutation_trans; [exact H|]. apply Permutation_sym, Permutation_middle.
    + destruct (lookup (b_right b) m); [discriminate|]. apply IH. exact H.
Qed.
Definition all_targets (l : list (inst * list bnd)) : list string := flat_map (fun e => targets (snd e)) l.
Lemma NoDup_app_iff : forall A (l k : list A), NoDup (l ++ k) <-> NoDup l /\ NoDup k /\ forall x, In x l -> ~ In x k.
Proof.
  induction l as [|y l IH]; intros k; cbn [app].
  - split; [intro H; split; [constructor|]; split; [exact H|intros ? []]|tauto].
  - split.
    + intro H. inversion H as [|? ? N1 N2]; subst. apply IH in N2. destruct N2 as [A1 [A2 A3]].
      rewrite in_app_iff in N1. split; [constructor; tauto|]. split; [exact A2|]. intros x [<- |I]; [tauto|apply A3; exact I].
    + intros [H1 [H2 H3]]. inversion H1 as [|? ? N1 N2]; subst. constructor.
      * rewrite in_app_iff. intros [J|J]; [contradiction|]. apply (H3 y); [left; reflexivity|exact J].
      * apply IH. split; [exact N2|]. split; [exact H2|]. intros x I. apply H3. right. exact I.
Qed.
Lemma bound_all_some : forall l m, (forall e, In e l -> noinout (snd e)) ->
  (exists m', bound_all l m = Some m') <-> (NoDup (all_targets l) /\ forall x, In x (all_targets l) -> ~ In x (map fst m)).
Proof.
  induction l as [|[i bs] l IH]; intros m NI.
  - cbn. split; [intros _; split; [constructor|intros ? []]|]. intros _. eauto.
  - assert (NI' : forall e, In e l -> noinout (snd e)) by (intros e I; apply NI; right; exact I).
    assert (NI0 : noinout bs) by (apply (NI (i, bs)); left; reflexivity).
    cbn [bound_all all_targets flat_map snd]. fold (all_targets l). rewrite NoDup_app_iff. split.
    + intros [m' H]. destruct (bound1 (i_name i) bs m) as [m1|] eqn:E; [|discriminate].
      destruct (proj1 (bound1_some (i_name i) bs m NI0) (ex_intro _ _ E)) as [A B].
      destruct (proj1 (IH m1 NI') (ex_intro _ _ H)) as [A' B']. pose proof (bound1_fst _ _ _ _ E) as Q.
      split.
      * split; [exact A|]. split; [exact A'|]. intros x I J. apply (B' _ J). eapply Permutation_in; [apply Permutation_sym; exact Q|]. apply in_or_app. left. exact I.
      * intros x I. apply in_app_or in I. destruct I as [I|I]; [apply B; exact I|]. intro J. apply (B' _ I).
        eapply Permutation_in; [apply Permutation_sym; exact Q|]. apply in_or_app. right. exact J.
    + intros [[A [A' D]] B].
      destruct (proj2 (bound1_some (i_name i) bs m NI0)) as [m1 E].
      { split; [exact A|]. intros x I. apply B, in_or_app. left. exact I. }
      rewrite E. apply IH; [exact NI'|]. split; [exact A'|]. intros x I J.
      eapply Permutation_in in J; [|exact (bound1_fst _ _ _ _ E)]. apply in_app_or in J. destruct J as [J|J].
      * apply (D _ J I).
      * apply (B x); [apply in_or_app; right; exact I|exact J].
Qed.
Lemma all_targets_perm : forall l l', Permutation l l' -> Permutation (all_targets l) (all_targets l').
Proof. intros l l' H. unfold all_targets. apply Permutation_flat_map. exact H. Qed.
Lemma NoDup_lookup : forall m x e, NoDup (map fst m) -> In (x, e) m -> lookup x m = Some e.
Proof.
  induction m as [|[y f] m IH]; intros x e N I; [destruct I|]. cbn [map fst] in N. inversion N as [|? ? N1 N2]; subst.
  cbn [lookup]. destruct I as [I|I].
  - injection I as -> ->. rewrite String.eqb_refl. reflexivity.
  - destruct (String.eqb x y) eqn:E; [|apply IH; assumption]. apply String.eqb_eq in E. subst. exfalso. apply N1.
    apply in_map_iff. exists (y, e). auto.
Qed.
Lemma lookup_perm : forall m m' x, NoDup (map fst m) -> Permutation m m' -> lookup x m = lookup x m'.
Proof.
  intros m m' x N P. assert (N' : NoDup (map fst m')) by (eapply Permutation_NoDup; [apply Permutation_map; exact P|exact N]).
  destruct (lookup x m) as [e|] eqn:L.
  - symmetry. apply NoDup_lookup; [exact N'|]. eapply Permutation_in; [exact P|]. apply lookup_In. exact L.
  - symmetry. apply lookup_None. apply lookup_None in L. intro I. apply L. eapply Permutation_in; [|exact I].
    apply Permutation_sym, Permutation_map, P.
Qed.
Lemma forallb_perm : forall A (f : A -> bool) l l', Permutation l l' -> forallb f l = forallb f l'.
Proof.
  intros A f l l' P. destruct (forallb f l) eqn:E, (forallb f l') eqn:E'; try reflexivity; exfalso.
  - rewrite forallb_forall in E. assert (X : forallb f l' = true); [|congruence]. apply forallb_forall. intros x I. apply E.
    eapply Permutation_in; [apply Permutation_sym; exact P|exact I].
  - rewrite forallb_forall in E'. assert (X : forallb f l = true); [|congruence]. apply forallb_forall. intros x I. apply E'.
    eapply Permutation_in; [exact P|exact I].
Qed.
Lemma forallb_ext_in' : forall A (f g : A -> bool) l, (forall x, f x = g x) -> forallb f l = forallb g l.
Proof. intros A f g l H. induction l as [|x l IH]; [reflexivity|]. cbn. rewrite H, IH. reflexivity. Qed.
Lemma read_ext : forall a m m' x q, (forall y, lookup y m = lookup y m') -> read a m x q = read a m' x q.
Proof. intros a m m' x q H. unfold read. rewrite H. reflexivity. Qed.
Lemma input_net_ext : forall a m m' i l x, (forall y, lookup y m = lookup y m') -> input_net a m i l x = input_net a m' i l x.
Proof. intros a m m' i l x H. unfold input_net. destruct (bound_input l x) as [[v q]|]; [|reflexivity]. rewrite H, (read_ext a m m') by exact H. reflexivity. Qed.

(** The names of the outputs of the instances in the dot syntax are distinct. *)
Definition own_ok (l : list inst) : Prop := NoDup (map fst (flat_map own l)).

(** The instances are visited in the order of a hash table. Without bindings of inouts, neither acceptance nor any connection depends on it. *)
Theorem C43_order_partial : forall a l l' r m,
  Permutation l l' -> own_ok l -> compile a l = Some (r, m) -> (forall i bs, In (i, bs) r -> noinout bs) ->
  exists r' m', compile a l' = Some (r', m') /\
    (forall x q, read a m x q = read a m' x q) /\
    (forall i bs, In (i, bs) r -> In (i, bs) r' /\ forall x, input_net a m i bs x = input_net a m' i bs x).
Proof.
  intros a l l' r m P O H NI. destruct (compile_inv _ _ _ _ H) as [G [C [W [B Q]]]].
  destruct (gather_perm _ _ _ P _ G) as [r' [G' P']].
  assert (NI1 : forall e, In e r -> noinout (snd e)) by (intros [i bs] I; apply (NI _ _ I)).
  assert (NI2 : forall e, In e r' -> noinout (snd e)).
  { intros e I. apply NI1. eapply Permutation_in; [apply Permutation_sym; exact P'|exact I]. }
  assert (Po : Permutation (flat_map own l) (flat_map own l')) by (apply Permutation_flat_map; exact P).
  destruct (proj1 (bound_all_some r _ NI1) (ex_intro _ _ B)) as [N F].
  destruct (proj2 (bound_all_some r' (flat_map own l') NI2)) as [m' B'].
  { split.
    - eapply Permutation_NoDup; [apply all_targets_perm; exact P'|exact N].
    - intros x I J. apply (F x).
      + eapply Permutation_in; [apply all_targets_perm, Permutation_sym; exact P'|exact I].
      + eapply Permutation_in; [apply Permutation_map, Permutation_sym; exact Po|exact J]. }
  assert (L : forall y, lookup y m = lookup y m').
  { destruct (bound_all_spec _ _ _ B) as [A1 [A2 A3]]. destruct (bound_all_spec _ _ _ B') as [A1' [A2' A3']].
    intro y. destruct (lookup y m) as [e|] eqn:E.
    - destruct (A3 _ _ E) as [K|[i [bs [b [K1 [K2 [K3 [K4 K5]]]]]]]].
      + symmetry. apply A1'. rewrite <- (lookup_perm (flat_map own l)); [exact K|exact O|exact Po].
      + symmetry. destruct (A2' i bs b) as [K _]; [|exact K2|exact K3|].
        * eapply Permutation_in; [exact P'|exact K1].
        * rewrite K4 in K. rewrite K, K5. reflexivity.
    - destruct (lookup y m') as [e|] eqn:E'; [|reflexivity]. exfalso.
      destruct (A3' _ _ E') as [K|[i [bs [b [K1 [K2 [K3 [K4 K5]]]]]]]].
      + rewrite <- (lookup_perm (flat_map own l)) in K; [|exact O|exact Po]. rewrite (A1 _ _ K) in E. discriminate.
      + destruct (A2 i bs b) as [K _]; [|exact K2|exact K3|].
        * eapply Permutation_in; [apply Permutation_sym; exact P'|exact K1].
        * rewrite K4 in K. congruence. }
  exists r', m'. split.
  - unfold compile. rewrite G'.
    rewrite <- (forallb_perm _ _ _ _ P'), <- (forallb_perm _ (fun e => access_ok a (snd e)) _ _ P').
    rewrite (proj2 (forallb_forall _ _) C), (proj2 (forallb_forall _ _) W). cbn [andb]. rewrite B', <- (forallb_perm _ _ _ _ P').
    rewrite (forallb_ext_in' _ (inputs_ok a m') (inputs_ok a m)).
    + rewrite (proj2 (forallb_forall _ _) Q). reflexivity.
    + intros [i bs]. unfold inputs_ok. apply forallb_ext_in'. intro x. rewrite (input_net_ext a m m') by exact L. reflexivity.
  - split; [intros x q; apply read_ext; exact L|]. intros i bs I. split.
    + eapply Permutation_in; [exact P'|exact I].
    + intro x. apply input_net_ext. exact L.
Qed.

(** ** Examples *)
Definition ex_alg : alg := {| a_in := ["x"]; a_out := ["y"]; a_io := ["p"]; a_var := ["v"; "g_a"; "g_b"; "z"]; a_comb := fun _ => false;
  a_grp := fun s => if String.eqb s "g" then Some ["a"; "b"] else None; a_clock := "clock"; a_reset := "reset"; a_writes := ["z"; "g_b"] |}.
Definition ex_bp : bp := {| bp_in := ["x"; "z"; "b_b"; "k"]; bp_out := ["o"; "b_a"]; bp_io := ["p"]; bp_comb := Some (fun _ => false); bp_callable := true |}.
Definition wr (l : string) (o : op) (r : string) : written := {| w_left := l; w_op := o; w_right := r |}.
Definition ex_A : inst := {| i_name := "A"; i_bp := ex_bp; i_auto := true; i_reg := false; i_vars := ["v"; "g_a"; "g_b"];
  i_written := [wr "o" ORight "v"; wr "b" OBi "g"; wr "p" OBi "p"] |}.
Definition ex_B : inst := {| i_name := "B"; i_bp := {| bp_in := ["k"; "z"]; bp_out := ["o"]; bp_io := []; bp_comb := None; bp_callable := false |};
  i_auto := false; i_reg := false; i_vars := ["v"; "z"]; i_written := [wr "k" OLeft "v"; wr "z" OLeftQ "z"; wr "o" ORight "y"] |}.

Example C43_ex : exists r m ba bb, compile ex_alg [ex_A; ex_B] = Some (r, m) /\ r = [(ex_A, ba); (ex_B, bb)] /\
  input_net ex_alg m ex_A ba "x" = Some (NIn "x") /\ input_net ex_alg m ex_A ba "z" = Some (NOwn "_A_z" true) /\
  input_net ex_alg m ex_A ba "b_b" = Some (NOwn "g_b" false) /\ input_net ex_alg m ex_A ba "k" = Some (NOwn "_A_k" true) /\
  input_net ex_alg m ex_B bb "k" = Some (NWire "A" "o") /\ input_net ex_alg m ex_B bb "z" = Some (NOwn "z" true) /\
  read ex_alg m "g_a" false = Some (NWire "A" "b_a") /\ read ex_alg m "y" false = Some (NWire "B" "o").
Proof. do 4 eexists. split; [vm_compute; reflexivity|]. split; [reflexivity|]. vm_compute. repeat split. Qed.
Example C43_ex_ports : ports_ok ex_A /\ ports_ok ex_B /\ own_ok [ex_A; ex_B].
Proof.
  assert (T : forall l, (fix nd (l : list string) := match l with [] => true | x :: l' => negb (mem x l') && nd l' end) l = true -> NoDup l).
  { induction l as [|x l IH]; intro H; constructor; apply andb_prop in H; destruct H as [H1 H2];
      [apply mem_nIn; destruct (mem x l); [discriminate|reflexivity]|apply IH; exact H2]. }
  repeat split; apply T; reflexivity.
Qed.
(** The hypotheses of the theorems on inputs and outputs are met by the instances above. *)
Example C43_ex_asks : asks_in ex_alg ex_B "k" "v" false /\ asks_in ex_alg ex_A "b_b" "g_b" false /\
  out_to ex_alg ex_A "o" "v" /\ out_to ex_alg ex_A "b_a" "g_a" /\ says_nothing ex_alg ex_A "k".
Proof.
  assert (G : says ex_alg ex_A "b_b" OBi "g_b") by (apply (says_group ex_alg ex_A "b" OBi "g" ["a"; "b"] "b"); cbn; intuition discriminate).
  assert (G2 : says ex_alg ex_A "b_a" OBi "g_a") by (apply (says_group ex_alg ex_A "b" OBi "g" ["a"; "b"] "a"); cbn; intuition discriminate).
  split; [left; apply says_port; cbn; auto|]. split; [right; exact G|].
  split; [split; [cbn; auto|]; left; left; apply says_port; cbn; auto|].
  split; [split; [cbn; auto|]; left; right; left; exact G2|].
  intros o v S. inversion S as [x o' v' W Z|g o' G' ms m W Z M E J]; subst.
  - cbn in W. repeat (destruct W as [W|W]; [discriminate W|]). exact W.
  - cbn in W. repeat (destruct W as [W|W]; [injection W as <- <- <-; discriminate|]). exact W.
Qed.
(** Order: the same design, instances in the other order. *)
Example C43_ex_order : exists r m, compile ex_alg [ex_B; ex_A] = Some (r, m) /\ read ex_alg m "v" true = Some (NWire "A" "o").
Proof. do 2 eexists. split; vm_compute; reflexivity. Qed.
(** Refused: the wrong direction, two outputs on a name, a written variable, a name both read and driven by the instance. *)
Example C43_ex_refused :
  let A w := {| i_name := "A"; i_bp := ex_bp; i_auto := false; i_reg := false; i_vars := []; i_written := w |} in
  compile ex_alg [A [wr "o" OLeft "v"]] = None /\ compile ex_alg [A [wr "o" ORight "v"; wr "b_a" ORight "v"]] = None /\
  compile ex_alg [A [wr "o" ORight "z"]] = None /\ compile ex_alg [A [wr "o" ORight "v"; wr "k" OLeft "v"]] = None /\
  compile ex_alg [A [wr "k" OLeftQ "x"]] = None /\ compile ex_alg [A [wr "k" OLeft "unknown"]] = None.
Proof. vm_compute. repeat split. Qed.

(** ** What does not hold *)

(** An input bound twice is accepted; the second binding is lost. *)
Theorem C43_twice_refuted : exists a i r m bs, compile a [i] = Some (r, m) /\ r = [(i, bs)] /\ ports_ok i /\
  asks_in a i "k" "v" false /\ asks_in a i "k" "z" false /\ read a m "v" false <> read a m "z" false /\
  input_net a m i bs "k" = read a m "v" false.
Proof.
  exists ex_alg, {| i_name := "A"; i_bp := ex_bp; i_auto := false; i_reg := false; i_vars := []; i_written := [wr "k" OLeft "v"; wr "k" OLeft "z"] |}.
  do 3 eexists. split; [vm_compute; reflexivity|]. split; [reflexivity|]. split; [exact (proj1 C43_ex_ports)|].
  split; [left; apply says_port; cbn; auto|]. split; [left; apply says_port; cbn; auto|]. split; [vm_compute; discriminate|]. vm_compute. reflexivity.
Qed.
(** The output of an instance bound to an input of the algorithm is accepted, and leads nowhere: the name still reads the input. *)
Theorem C43_to_input_refuted : exists a i r m, compile a [i] = Some (r, m) /\ ports_ok i /\ out_to a i "o" "x" /\ In "x" (a_in a) /\
  forall q, read a m "x" q = Some (NIn "x").
Proof.
  exists ex_alg, {| i_name := "A"; i_bp := ex_bp; i_auto := false; i_reg := false; i_vars := []; i_written := [wr "o" ORight "x"] |}.
  do 2 eexists. split; [vm_compute; reflexivity|]. split; [exact (proj1 C43_ex_ports)|].
  split; [split; [cbn; auto|]; left; left; apply says_port; cbn; auto|]. split; [left; reflexivity|]. intro q. reflexivity.
Qed.
(** A binding of groups whose left side names no port of the instance is accepted and connects nothing. *)
Theorem C43_group_ignored_refuted : exists a i r m w, compile a [i] = Some (r, m) /\ r = [(i, [])] /\ i_written i = [w] /\
  w_op w = OBi /\ (exists ms, a_grp a (w_right w) = Some ms /\ ms <> []) /\ i_auto i = false.
Proof.
  exists ex_alg, {| i_name := "A"; i_bp := ex_bp; i_auto := false; i_reg := false; i_vars := []; i_written := [wr "typo" OBi "g"] |}.
  do 3 eexists. split; [vm_compute; reflexivity|]. split; [reflexivity|]. split; [reflexivity|]. split; [reflexivity|].
  split; [|reflexivity]. exists ["a"; "b"]. split; [reflexivity|discriminate].
Qed.
(** [<:auto:>] does not see the variables declared after the instance: two algorithms with the same declarations in another order are connected differently. *)
Theorem C43_auto_order_refuted : exists a i i' r m r' m' bs bs',
  compile a [i] = Some (r, m) /\ compile a [i'] = Some (r', m') /\ r = [(i, bs)] /\ r' = [(i', bs')] /\
  i' = {| i_name := i_name i; i_bp := i_bp i; i_auto := i_auto i; i_reg := i_reg i; i_vars := a_var a; i_written := i_written i |} /\
  incl (i_vars i) (a_var a) /\ i_auto i = true /\ In "z" (bp_in (i_bp i)) /\ In "z" (a_var a) /\
  input_net a m' i' bs' "z" = Some (NOwn "z" false) /\ input_net a m i bs "z" = Some (NOwn "_A_z" true).
Proof.
  exists ex_alg, {| i_name := "A"; i_bp := ex_bp; i_auto := true; i_reg := false; i_vars := []; i_written := [] |},
    {| i_name := "A"; i_bp := ex_bp; i_auto := true; i_reg := false; i_vars := a_var ex_alg; i_written := [] |}.
  do 6 eexists. split; [vm_compute; reflexivity|]. split; [vm_compute; reflexivity|]. split; [reflexivity|]. split; [reflexivity|].
  split; [reflexivity|]. split; [intros ? []|]. split; [reflexivity|]. cbn [i_bp ex_bp bp_in a_var ex_alg]. split; [cbn; auto|]. split; [cbn; auto|]. vm_compute. auto.
Qed.
(** With an inout bound in both ways, whether the design is accepted depends on the order in which the hash table gives the instances. *)
Theorem C43_inout_order_refuted : exists a i j, own_ok [i; j] /\ ports_ok i /\ ports_ok j /\ compile a [i; j] <> None /\ compile a [j; i] = None.
Proof.
  exists ex_alg,
    {| i_name := "A"; i_bp := ex_bp; i_auto := false; i_reg := false; i_vars := []; i_written := [wr "p" OBi "p"] |},
    {| i_name := "B"; i_bp := i_bp ex_B; i_auto := false; i_reg := false; i_vars := []; i_written := [wr "o" ORight "p"] |}.
  split; [exact (proj2 (proj2 C43_ex_ports))|]. split; [exact (proj1 C43_ex_ports)|]. split; [exact (proj1 (proj2 C43_ex_ports))|].
  split; [vm_compute; discriminate|reflexivity].
Qed.

Print Assumptions C43_input_partial.
Print Assumptions C43_unbound_partial.
Print Assumptions C43_output_partial.
Print Assumptions C43_one_driver_partial.
Print Assumptions C43_chain_partial.
Print Assumptions C43_direction_partial.
Print Assumptions C43_checks_partial.
Print Assumptions C43_registered_partial.
Print Assumptions C43_order_partial.
Print Assumptions C43_twice_refuted.
Print Assumptions C43_to_input_refuted.
Print Assumptions C43_group_ignored_refuted.
Print Assumptions C43_auto_order_refuted.
Print Assumptions C43_inout_order_refuted.
