From Coq Require Import String Ascii List Bool Arith Lia DecimalString DecimalNat Decimal.
From Verif Require Import NameModel.
Import ListNotations.
Local Open Scope string_scope.
Local Open Scope list_scope.

Lemma mem_In : forall x l, mem x l = true <-> In x l.
Proof.
  intros x l. unfold mem. rewrite existsb_exists. split.
  - intros (y & Hy & E). apply String.eqb_eq in E. congruence.
  - intros H. exists x. split; [assumption|apply String.eqb_refl].
Qed.

Lemma NoDup_snoc : forall (l : list string) x, NoDup l -> ~ In x l -> NoDup (l ++ [x]).
Proof.
  intros l x H Hx. apply NoDup_Add with (a := x) (l := l); [|split; assumption].
  replace l with (l ++ []) at 1 by apply app_nil_r. apply Add_app.
Qed.

Lemma addVar_spec : forall e s sc b v e', addVar e s sc b v = Some e' ->
  e' = insertVar e (blockVIOName b v) /\ ~ In (blockVIOName b v) (n_vars e)
  /\ ~ In v (n_ins e) /\ ~ In v (n_outs e) /\ ~ In v (n_inouts e) /\ ~ In v (n_mems e) /\ ~ In v (n_subs e)
  /\ ~ In v (n_insts e) /\ ~ In v s.
Proof.
  unfold addVar, isIdentifierAvailable. intros e s sc b v e' H.
  destruct (mem v (n_subs e) || mem v s || mem v (n_insts e) || mem v (n_ins e)
     || mem v (n_outs e) || mem v (n_inouts e) || mem v (n_mems e) || mem (blockVIOName b v) (n_vars e)) eqn:E; [discriminate|].
  repeat (apply orb_false_iff in E; destruct E as [E ?]).
  assert (K : forall x l, mem x l = false -> ~ In x l).
  { intros x l Hm Hin. apply mem_In in Hin. congruence. }
  repeat split; auto. destruct (mem v sc); inversion H; reflexivity.
Qed.

Definition is_var (d : decl) : Prop := match d with DVar _ _ _ _ => True | _ => False end.

Lemma declare_vars_nodup : forall ds e e', Forall is_var ds -> NoDup (n_vars e) ->
  declare_all e ds = Some e' -> NoDup (n_vars e').
Proof.
  induction ds as [|d ds IH]; intros e e' Hv Hn H; cbn in H; [inversion H; subst; assumption|].
  apply Forall_cons_iff in Hv. destruct Hv as [Hd Hv].
  destruct (declare e d) as [e1|] eqn:E; [|discriminate]. apply (IH e1 e'); auto.
  destruct d; [|contradiction]. cbn in E. apply addVar_spec in E. destruct E as (-> & Hnew & _).
  cbn. apply NoDup_snoc; assumption.
Qed.

Lemma index_of_nth : forall l i x, NoDup l -> nth_error l i = Some x -> index_of x l = Some i.
Proof.
  induction l as [|y l IH]; intros i x Hn H; destruct i; cbn in *; try discriminate.
  - inversion H; subst. rewrite String.eqb_refl. reflexivity.
  - inversion Hn; subst. destruct (String.eqb_spec x y) as [->|]; [exfalso; apply H2; eapply nth_error_In; eauto|].
    rewrite (IH i x); auto.
Qed.

(** Block names given to variables of [ds] whose block is [_top]: the name is not a port. *)
Definition ports (e : names) := n_ins e ++ n_inouts e ++ n_outs e.
Definition top_or_free (e : names) (d : decl) : Prop :=
  match d with DVar _ _ b v => b = "_top" \/ ~ In (blockVIOName b v) (ports e) | _ => False end.

Lemma ports_const : forall ds e e', declare_all e ds = Some e' -> ports e' = ports e.
Proof.
  induction ds as [|d ds IH]; intros e e' H; cbn in H; [inversion H; reflexivity|].
  destruct (declare e d) as [e1|] eqn:E; [|discriminate]. rewrite (IH _ _ H).
  destruct d; cbn in E.
  - apply addVar_spec in E. destruct E as (-> & _). reflexivity.
  - unfold addSubroutineIO in E. destruct (_ || _ || _); inversion E. reflexivity.
Qed.

Lemma declare_not_port : forall ds e e', Forall (top_or_free e) ds ->
  (forall x, In x (n_vars e) -> ~ In x (ports e)) -> declare_all e ds = Some e' ->
  forall x, In x (n_vars e') -> ~ In x (ports e').
Proof.
  induction ds as [|d ds IH]; intros e e' Hv Hn H; cbn in H; [inversion H; subst; assumption|].
  apply Forall_cons_iff in Hv. destruct Hv as [Hd Hv].
  destruct (declare e d) as [e1|] eqn:E; [|discriminate].
  assert (Hp : ports e1 = ports e).
  { apply (ports_const [d]). cbn. rewrite E. reflexivity. }
  apply (IH e1 e').
  - eapply Forall_impl; [|exact Hv]. intros d'. unfold top_or_free. rewrite Hp. auto.
  - rewrite Hp. destruct d; [|contradiction]. cbn in E. apply addVar_spec in E.
    destruct E as (-> & Hnew & Hi & Ho & Hio & _). cbn. intros x Hx. apply in_app_or in Hx.
    destruct Hx as [Hx|[<-|[]]]; [apply Hn; assumption|].
    cbn in Hd. destruct Hd as [->|Hd]; [|assumption]. cbn. unfold ports. rewrite !in_app_iff. tauto.
  - assumption.
Qed.

Lemma resolve_each : forall e i x, NoDup (n_vars e) -> (forall y, In y (n_vars e) -> ~ In y (ports e)) ->
  nth_error (n_vars e) i = Some x -> resolve e x = Some (SVar i).
Proof.
  intros e i x Hn Hp Hx. assert (Hin : In x (n_vars e)) by (eapply nth_error_In; eauto).
  apply Hp in Hin. unfold ports in Hin. rewrite !in_app_iff in Hin. unfold resolve.
  assert (K : forall l, ~ In x l -> mem x l = false).
  { intros l H. destruct (mem x l) eqn:E; [apply mem_In in E; tauto|reflexivity]. }
  rewrite !K by tauto. rewrite (index_of_nth _ _ _ Hn Hx). reflexivity.
Qed.

Lemma accepted_resolve : forall ds e e', n_vars e = [] -> Forall (top_or_free e) ds ->
  declare_all e ds = Some e' ->
  forall i x, nth_error (n_vars e') i = Some x -> resolve e' x = Some (SVar i).
Proof.
  intros ds e e' H0 Hf H i x Hx. apply resolve_each; auto.
  - apply (declare_vars_nodup ds e); auto.
    + eapply Forall_impl; [|exact Hf]. intros [] Hd; cbn in *; auto.
    + rewrite H0. constructor.
  - apply (declare_not_port ds e); auto. rewrite H0. intros y [].
Qed.

(** Trickling names. *)
Fixpoint digits (s : string) : Prop :=
  match s with EmptyString => True | String c r => c <> "_"%char /\ digits r end.

Lemma digits_uint : forall d, digits (NilEmpty.string_of_uint d).
Proof. induction d; cbn; auto; split; auto; discriminate. Qed.
Lemma digits_to_string : forall n, digits (to_string n).
Proof.
  intros n. unfold to_string, NilZero.string_of_uint. destruct (Nat.to_uint n) eqn:E.
  - cbn. split; [discriminate|exact I].
  - apply (digits_uint (D0 u)).
  - apply (digits_uint (D1 u)).
  - apply (digits_uint (D2 u)).
  - apply (digits_uint (D3 u)).
  - apply (digits_uint (D4 u)).
  - apply (digits_uint (D5 u)).
  - apply (digits_uint (D6 u)).
  - apply (digits_uint (D7 u)).
  - apply (digits_uint (D8 u)).
  - apply (digits_uint (D9 u)).
Qed.

Lemma to_string_inj : forall n m, to_string n = to_string m -> n = m.
Proof.
  intros n m H. unfold to_string in H.
  assert (K : forall k, option_map Nat.of_uint (NilZero.uint_of_string (NilZero.string_of_uint (Nat.to_uint k))) = Some k).
  { intros k. rewrite NilZero.usu.
    - cbn. rewrite DecimalNat.Unsigned.of_to. reflexivity.
    - intros E. pose proof (DecimalNat.Unsigned.of_to k) as Hk. rewrite E in Hk. cbn in Hk. subst k. discriminate E. }
  pose proof (K n) as Kn. pose proof (K m) as Km. rewrite H in Kn. congruence.
Qed.

Lemma field_inj : forall d1 d2 r1 r2, digits d1 -> digits d2 ->
  (d1 ++ "_" ++ r1)%string = (d2 ++ "_" ++ r2)%string -> d1 = d2 /\ r1 = r2.
Proof.
  induction d1 as [|c d1 IH]; intros [|c2 d2] r1 r2 H1 H2 E; cbn in *.
  - inversion E. split; reflexivity.
  - inversion E. subst. tauto.
  - inversion E. subst. tauto.
  - inversion E. subst. destruct (IH d2 r1 r2) as [-> ->]; tauto.
Qed.

Lemma string_app_assoc : forall a b c : string, ((a ++ b) ++ c)%string = (a ++ (b ++ c))%string.
Proof. induction a as [|x a IH]; intros; cbn; [reflexivity|]. rewrite IH. reflexivity. Qed.

Lemma trickling_inj : forall v1 l1 i1 s1 v2 l2 i2 s2,
  tricklingVIOName v1 (pipelineName l1 i1) s1 = tricklingVIOName v2 (pipelineName l2 i2) s2 ->
  v1 = v2 /\ l1 = l2 /\ i1 = i2 /\ s1 = s2.
Proof.
  unfold tricklingVIOName, pipelineName. intros v1 l1 i1 s1 v2 l2 i2 s2 H.
  rewrite !string_app_assoc in H. cbn [append] in H.
  repeat match type of H with String _ _ = String _ _ => inversion H as [H']; clear H; rename H' into H end.
  apply (field_inj _ _ _ _ (digits_to_string _) (digits_to_string _)) in H. destruct H as [Hl H].
  rewrite ?string_app_assoc in H.
  apply (field_inj _ _ _ _ (digits_to_string _) (digits_to_string _)) in H. destruct H as [Hi H].
  apply (field_inj _ _ _ _ (digits_to_string _) (digits_to_string _)) in H. destruct H as [Hs H].
  apply to_string_inj in Hl, Hi, Hs. auto.
Qed.

(** * sameas *)

(** Every [same_as] names a declared variable that has a width. *)
Definition roots_ok (e : tenv) : Prop :=
  forall v r, lookup v e = Some (TSameAs r) -> exists w, lookup r e = Some (TWidth w).

Definition roots_fixed (e : tenv) (sub blk : rules) : Prop :=
  forall v r, lookup v e = Some (TSameAs r) -> translateVIOName sub blk r = r.

Lemma find_root : forall e sub blk v b fuel, roots_ok e -> roots_fixed e sub blk ->
  translateVIOName sub blk v = b -> lookup b e <> None -> 2 <= fuel ->
  exists r w, findSameAsRoot fuel e sub blk v = Some r /\ lookup r e = Some (TWidth w) /\ width_of e b = Some w.
Proof.
  intros e sub blk v b fuel Hr Hf Hb Hd Hfuel. destruct fuel as [|[|f]]; try lia.
  cbn [findSameAsRoot]. rewrite Hb. unfold width_of. destruct (lookup b e) as [[w|r]|] eqn:E; [| |congruence].
  - exists b, w. auto.
  - destruct (Hr _ _ E) as [w Hw]. rewrite (Hf _ _ E), Hw. exists r, w. auto.
Qed.

Lemma same_as_ok : forall e sub blk base, roots_ok e -> roots_fixed e sub blk ->
  translateVIOName sub blk (translateVIOName sub blk base) = translateVIOName sub blk base ->
  lookup (translateVIOName sub blk base) e <> None ->
  forall fuel x, 2 <= fuel -> lookup x e = None ->
  exists r, gatherSameAs fuel e sub blk base = Some (TSameAs r) /\
    width_of (e ++ [(x, TSameAs r)]) x = width_of e (translateVIOName sub blk base) /\
    width_of e (translateVIOName sub blk base) <> None /\
    roots_ok (e ++ [(x, TSameAs r)]).
Proof.
  intros e sub blk base Hr Hf Hi Hd fuel x Hfuel Hx.
  assert (Lapp : forall A (l1 : list (string * A)) y a z, lookup z l1 = None -> lookup z (l1 ++ [(y, a)]) = if String.eqb z y then Some a else None).
  { induction l1 as [|[k b] l1 IH]; intros y a z Hz; cbn in *; [reflexivity|]. destruct (String.eqb z k); [discriminate|]. apply IH; assumption. }
  assert (Lapp2 : forall A (l1 : list (string * A)) y a z b, lookup z l1 = Some b -> lookup z (l1 ++ [(y, a)]) = Some b).
  { induction l1 as [|[k b] l1 IH]; intros y a z c Hz; cbn in *; [discriminate|]. destruct (String.eqb z k); [assumption|]. apply IH; assumption. }
  destruct (find_root e sub blk (translateVIOName sub blk base) _ fuel Hr Hf eq_refl) as (r & w & H1 & H2 & H3); [rewrite Hi; exact Hd|exact Hfuel|].
  rewrite Hi in H3.
  exists r. unfold gatherSameAs. destruct (lookup (translateVIOName sub blk base) e) eqn:E; [|congruence]. rewrite H1. cbn [option_map].
  split; [reflexivity|]. split; [|split; [congruence|]].
  - rewrite H3. unfold width_of at 1. rewrite (Lapp _ _ _ _ _ Hx), String.eqb_refl. rewrite (Lapp2 _ _ _ _ _ _ H2). reflexivity.
  - intros v r' Hv. destruct (lookup v e) as [tv|] eqn:Ev.
    + rewrite (Lapp2 _ _ _ _ _ _ Ev) in Hv. inversion Hv; subst. destruct (Hr _ _ Ev) as [w' Hw'].
      exists w'. apply Lapp2. exact Hw'.
    + rewrite (Lapp _ _ _ _ _ Ev) in Hv. destruct (String.eqb v x); [|discriminate]. inversion Hv; subst.
      exists w. apply Lapp2. exact H2.
Qed.
