From Coq Require Import String Ascii List Bool Arith Lia Permutation.
From Verif Require Import TemplateModel.
Import ListNotations.
Local Open Scope list_scope.

(** A template as its author sees it. *)
Inductive item := Lit (l : text) | Mark (k : text).

Definition item_text (i : item) : text := match i with Lit l => l | Mark k => pct :: k ++ [pct] end.
Definition text_of (t : list item) : text := flat_map item_text t.

Fixpoint teqb (a b : text) : bool :=
  match a, b with
  | [], [] => true
  | x :: a', y :: b' => Ascii.eqb x y && teqb a' b'
  | _, _ => false
  end.
Lemma teqb_eq : forall a b, teqb a b = true <-> a = b.
Proof.
  induction a as [|x a IH]; destruct b as [|y b]; cbn; split; try discriminate; try reflexivity.
  - intros H. apply andb_true_iff in H. destruct H as [H1 H2]. apply Ascii.eqb_eq in H1. apply IH in H2. congruence.
  - intros H. inversion H; subst. rewrite Ascii.eqb_refl. cbn. apply IH. reflexivity.
Qed.

Definition lookup (env : list (text * text)) (k : text) : option text :=
  option_map snd (find (fun kv => teqb (fst kv) k) env).

(** What the template should become. *)
Definition subst_item (env : list (text * text)) (i : item) : text :=
  match i with
  | Lit l => l
  | Mark k => match lookup env k with Some v => v | None => item_text (Mark k) end
  end.
Definition subst (env : list (text * text)) (t : list item) : text := flat_map (subst_item env) t.

(** Text between a point and the next marker, if any. *)
Fixpoint next_gap (t : list item) : option text :=
  match t with
  | [] => None
  | Mark _ :: _ => Some []
  | Lit l :: r => option_map (app l) (next_gap r)
  end.

Definition ident_key (k : text) : Prop := forall c, In c k -> identb c = true.
Definition no_char (x : ascii) (l : text) : Prop := ~ In x l.

(** Well-formed templates: no stray '%', markers are identifiers, and the text between two markers is not an identifier. *)
Fixpoint wf (t : list item) : Prop :=
  match t with
  | [] => True
  | Lit l :: r => no_char pct l /\ wf r
  | Mark k :: r => ident_key k /\ (forall g, next_gap r = Some g -> exists c, In c g /\ identb c = false) /\ wf r
  end.

Definition step1 (K v : text) (i : item) : item :=
  match i with Mark k => if teqb k K then Lit v else Mark k | Lit l => Lit l end.

Lemma ident_not_pct : identb pct = false. Proof. reflexivity. Qed.
Lemma ident_key_no_pct : forall k, ident_key k -> no_char pct k.
Proof. intros k H Hin. specialize (H _ Hin). rewrite ident_not_pct in H. discriminate. Qed.

(** A '$' that starts no escape sequence. *)
Definition special (d : ascii) : bool := Ascii.eqb d dollar || Ascii.eqb d "&"%char || Ascii.eqb d "`"%char || Ascii.eqb d "'"%char || is_digit d.
Definition plain (v : text) : Prop := forall a d b, v = a ++ dollar :: d :: b -> special d = false.
Lemma plain_tail : forall c v, plain (c :: v) -> plain v.
Proof. intros c v H a d b E. apply (H (c :: a) d b). rewrite E. reflexivity. Qed.
Lemma no_dollar_plain : forall v, no_char dollar v -> plain v.
Proof. intros v H a d b ->. exfalso. apply H. apply in_or_app. right; left; reflexivity. Qed.
Lemma fmt_plain : forall v n pre m suf, plain v -> length v < n -> fmt n pre m suf v = v.
Proof.
  induction v as [|c v IH]; intros n pre m suf H Hl; destruct n as [|n]; cbn in Hl; try lia; [reflexivity|].
  cbn [fmt]. pose proof (plain_tail _ _ H) as Ht. destruct (Ascii.eqb_spec c dollar) as [->|Hc].
  - destruct v as [|d v]; [reflexivity|]. specialize (H [] d v eq_refl). unfold special in H.
    repeat (apply orb_false_iff in H; destruct H as [H ?]). rewrite H, H0, H1, H2, H3. f_equal. apply IH; [exact Ht|lia].
  - f_equal. apply IH; [exact Ht|lia].
Qed.

(** Every '$' written twice. *)
Fixpoint doubled (v : text) : text := match v with [] => [] | c :: r => if Ascii.eqb c dollar then dollar :: dollar :: doubled r else c :: doubled r end.
Lemma fmt_doubled : forall v n pre m suf, length (doubled v) < n -> fmt n pre m suf (doubled v) = v.
Proof.
  induction v as [|c v IH]; intros n pre m suf Hl; destruct n as [|n]; cbn [doubled] in *; try (cbn in Hl; lia); [reflexivity|].
  destruct (Ascii.eqb c dollar) eqn:Ec.
  - apply Ascii.eqb_eq in Ec. subst c. cbn [fmt]. rewrite Ascii.eqb_refl. f_equal. apply IH. cbn in Hl. lia.
  - cbn [fmt]. rewrite Ec. f_equal. apply IH. cbn in Hl. lia.
Qed.

Lemma prefixb_spec : forall p s, prefixb p s = true <-> exists r, s = p ++ r.
Proof.
  induction p as [|a p IH]; intros s; cbn.
  - split; [intros _; exists s; reflexivity|reflexivity].
  - destruct s as [|b s]; [split; [discriminate|intros (r & H); discriminate]|].
    rewrite andb_true_iff, IH, Ascii.eqb_eq. split.
    + intros (-> & r & ->). exists r. reflexivity.
    + intros (r & H). inversion H; subst. split; [reflexivity|]. exists r; reflexivity.
Qed.

(** Two readings of a text up to its first '%' agree. *)
Lemma until_pct : forall a b x y, no_char pct a -> no_char pct b -> a ++ pct :: x = b ++ pct :: y -> a = b /\ x = y.
Proof.
  induction a as [|c a IH]; intros b x y Ha Hb H; destruct b as [|d b]; cbn in H.
  - inversion H; auto.
  - inversion H; subst. exfalso. apply Hb. left; reflexivity.
  - inversion H; subst. exfalso. apply Ha. left; reflexivity.
  - inversion H; subst. destruct (IH b x y) as [-> ->]; auto.
    + intros Hin; apply Ha; right; exact Hin.
    + intros Hin; apply Hb; right; exact Hin.
Qed.

Lemma no_pct_no_split : forall a b x, no_char pct a -> a = b ++ pct :: x -> False.
Proof. intros a b x H ->. apply H. apply in_or_app. right; left; reflexivity. Qed.

Lemma text_next_gap : forall t, wf t ->
  match next_gap t with
  | Some g => no_char pct g /\ exists r, text_of t = g ++ pct :: r
  | None => no_char pct (text_of t)
  end.
Proof.
  induction t as [|[l|k] t IH]; cbn [next_gap wf]; intros H.
  - intros [].
  - destruct H as [Hl Hw]. specialize (IH Hw). destruct (next_gap t) as [g|]; cbn [option_map].
    + destruct IH as (Hg & r & E). split.
      * intros Hin. apply in_app_or in Hin. destruct Hin; [apply Hl|apply Hg]; assumption.
      * exists r. cbn. unfold text_of in E. rewrite E. rewrite app_assoc. reflexivity.
    + intros Hin. cbn in Hin. apply in_app_or in Hin. destruct Hin; [apply Hl|apply IH]; assumption.
  - split; [intros []|]. exists ((k ++ [pct]) ++ text_of t). cbn. reflexivity.
Qed.

(** Skipping text without '%'. *)
Lemma replace_skip : forall pat v l n pre s, no_char pct l -> (exists p, pat = pct :: p) ->
  length (l ++ s) < n -> exists pre' n', length s < n' /\ replace n pat v pre (l ++ s) = l ++ replace n' pat v pre' s.
Proof.
  intros pat v. induction l as [|c l IH]; intros n pre s Hl Hp Hn.
  - exists pre, n. split; [exact Hn|reflexivity].
  - destruct n as [|n]; [cbn in Hn; lia|]. cbn [app replace].
    assert (E : prefixb pat (c :: l ++ s) = false).
    { destruct Hp as (p & ->). cbn [prefixb]. destruct (Ascii.eqb_spec pct c) as [<- |Hc]; [|reflexivity].
      exfalso. apply Hl. left; reflexivity. }
    rewrite E. destruct (IH n (pre ++ [c]) s) as (pre' & n' & Hn' & H); auto.
    + intros Hin; apply Hl; right; exact Hin.
    + cbn in Hn. lia.
    + exists pre', n'. split; [exact Hn'|]. rewrite H. reflexivity.
Qed.

Lemma prefix_mark : forall K k r, no_char pct K -> no_char pct k ->
  prefixb (pattern K) (pct :: (k ++ [pct]) ++ r) = teqb k K.
Proof.
  intros K k r HK Hk. apply eq_true_iff_eq. rewrite prefixb_spec, teqb_eq. unfold pattern. split.
  - intros (x & H). cbn in H. inversion H as [H1]. rewrite <- !app_assoc in H1. cbn in H1.
    apply until_pct in H1; auto. tauto.
  - intros ->. exists r. reflexivity.
Qed.

Lemma replace_template : forall K v t n pre, ident_key K -> plain v ->
  wf t -> length (text_of t) < n -> replace n (pattern K) v pre (text_of t) = text_of (map (step1 K v) t).
Proof.
  intros K v t. induction t as [|[l|k] t IH]; intros n pre HK Hd Hw Hn.
  - destruct n; reflexivity.
  - cbn [text_of flat_map item_text] in *. destruct Hw as [Hl Hw].
    destruct (replace_skip (pattern K) v l n pre (flat_map item_text t)) as (pre' & n' & Hn' & H); auto.
    { exists (K ++ [pct]); reflexivity. }
    rewrite H. cbn. f_equal. apply IH; auto.
  - cbn [wf] in Hw. destruct Hw as (Hk & Hg & Hw).
    pose proof (ident_key_no_pct _ HK) as HKp. pose proof (ident_key_no_pct _ Hk) as Hkp.
    change (text_of (Mark k :: t)) with (pct :: (k ++ [pct]) ++ text_of t) in *.
    destruct n as [|n]; [cbn in Hn; lia|]. cbn [replace]. rewrite prefix_mark by assumption.
    cbn [map step1]. destruct (teqb k K) eqn:E.
    + apply teqb_eq in E. subst k.
      assert (Es : skipn (length (pattern K)) (pct :: (K ++ [pct]) ++ text_of t) = text_of t).
      { change (pct :: (K ++ [pct]) ++ text_of t) with (pattern K ++ text_of t).
        rewrite skipn_app, skipn_all, Nat.sub_diag. reflexivity. }
      rewrite Es. rewrite fmt_plain by (auto; lia). cbn. f_equal. apply IH; auto.
      cbn in Hn. rewrite !app_length in Hn. unfold text_of in Hn |- *. lia.
    + (* not this marker: its characters are skipped, then its closing '%' *)
      change (text_of (Mark k :: map (step1 K v) t)) with (pct :: (k ++ [pct]) ++ text_of (map (step1 K v) t)).
      f_equal. rewrite <- !app_assoc.
      destruct (replace_skip (pattern K) v k n (pre ++ [pct]) (pct :: text_of t)) as (pre' & n' & Hn' & H); auto.
      { exists (K ++ [pct]); reflexivity. }
      { cbn in Hn. rewrite !app_length in *. cbn in *. lia. }
      change ([pct] ++ text_of t) with (pct :: text_of t). rewrite H. f_equal.
      destruct n' as [|n']; [cbn in Hn'; lia|]. cbn [replace].
      assert (Ef : prefixb (pattern K) (pct :: text_of t) = false).
      { apply not_true_iff_false. rewrite prefixb_spec. intros (x & Hx). unfold pattern in Hx. cbn in Hx.
        inversion Hx as [Hx']. rewrite <- app_assoc in Hx'. cbn in Hx'.
        pose proof (text_next_gap t Hw) as Hng. destruct (next_gap t) as [g|] eqn:Eg.
        - destruct Hng as (Hgp & r & Er). rewrite Er in Hx'. apply until_pct in Hx'; auto. destruct Hx' as [-> _].
          destruct (Hg K eq_refl) as (c & Hc & Hci). specialize (HK c Hc). congruence.
        - apply (no_pct_no_split _ _ _ Hng Hx'). }
      rewrite Ef. change ([pct] ++ text_of (map (step1 K v) t)) with (pct :: text_of (map (step1 K v) t)). f_equal.
      apply IH; auto. cbn in Hn'. lia.
Qed.

Lemma next_gap_step : forall K v t g, next_gap (map (step1 K v) t) = Some g ->
  exists g0 r, next_gap t = Some g0 /\ g = g0 ++ r.
Proof.
  intros K v. induction t as [|[l|k] t IH]; intros g H; cbn in *; [discriminate| |].
  - destruct (next_gap (map (step1 K v) t)) as [g'|] eqn:E; [|discriminate]. cbn in H. inversion H; subst.
    destruct (IH g' eq_refl) as (g0 & r & -> & ->). exists (l ++ g0), r. rewrite app_assoc. auto.
  - exists [], g. auto.
Qed.

Lemma wf_step : forall K v t, no_char pct v -> wf t -> wf (map (step1 K v) t).
Proof.
  intros K v t Hv. induction t as [|[l|k] t IH]; cbn [wf map step1]; auto.
  - intros [H1 H2]. auto.
  - intros (Hk & Hg & Hw). destruct (teqb k K).
    + split; auto.
    + cbn [wf]. split; [assumption|]. split; auto. intros g H. apply next_gap_step in H. destruct H as (g0 & r & H0 & ->).
      destruct (Hg g0 H0) as (c & Hc & Hci). exists c. split; [|assumption]. apply in_or_app. left; assumption.
Qed.

Lemma lookup_none : forall env k, lookup env k = None <-> ~ In k (map fst env).
Proof.
  induction env as [|[K v] env IH]; intros k; unfold lookup in *; cbn.
  - tauto.
  - destruct (teqb K k) eqn:E; cbn.
    + apply teqb_eq in E. split; [discriminate|]. intros H. exfalso. apply H. left; assumption.
    + rewrite IH. split; [|tauto]. intros H [H'|H']; [|auto]. subst. rewrite (proj2 (teqb_eq k k) eq_refl) in E. discriminate.
Qed.

Lemma subst_step : forall K v env t, ~ In K (map fst env) ->
  subst env (map (step1 K v) t) = subst ((K, v) :: env) t.
Proof.
  intros K v env t HK. unfold subst. induction t as [|[l|k] t IH]; [reflexivity| |].
  - cbn. f_equal. exact IH.
  - cbn [map flat_map step1]. rewrite IH. f_equal. unfold subst_item, lookup. cbn [find fst].
    destruct (teqb k K) eqn:E.
    + apply teqb_eq in E. subst. rewrite (proj2 (teqb_eq K K) eq_refl). reflexivity.
    + destruct (teqb K k) eqn:E'; [|reflexivity]. apply teqb_eq in E'. subst. rewrite (proj2 (teqb_eq k k) eq_refl) in E. discriminate.
Qed.

Lemma subst_nil : forall t, subst [] t = text_of t.
Proof. induction t as [|[l|k] t IH]; cbn; [reflexivity| |]; unfold subst, text_of in IH; rewrite IH; reflexivity. Qed.

Lemma from_string_correct : forall env t, NoDup (map fst env) ->
  (forall k v, In (k, v) env -> ident_key k /\ no_char pct v /\ plain v) ->
  wf t -> from_string (text_of t) env = subst env t.
Proof.
  induction env as [|[K v] env IH]; intros t Hn He Hw.
  - cbn. symmetry. apply subst_nil.
  - inversion Hn; subst. destruct (He K v (or_introl eq_refl)) as (HK & Hv & Hd).
    change (from_string (text_of t) ((K, v) :: env)) with (from_string (regex_replace (text_of t) K v) env).
    unfold regex_replace. rewrite replace_template by (auto; lia).
    rewrite IH; auto.
    + apply subst_step. assumption.
    + intros k' v' Hin. apply He. right; assumption.
    + apply wf_step; assumption.
Qed.

Lemma lookup_perm : forall env env' k, Permutation env env' -> NoDup (map fst env) -> lookup env k = lookup env' k.
Proof.
  intros env env' k HP. induction HP as [|[K v] l l' HP IH|[K v] [K' v'] l|l1 l2 l3 H1 IH1 H2 IH2]; intros Hn.
  - reflexivity.
  - unfold lookup in *. cbn. destruct (teqb K k); [reflexivity|]. apply IH. inversion Hn; assumption.
  - unfold lookup. cbn. cbn in Hn. inversion Hn; subst. destruct (teqb K k) eqn:E1; destruct (teqb K' k) eqn:E2; try reflexivity.
    apply teqb_eq in E1. apply teqb_eq in E2. subst. exfalso. apply H1. left; reflexivity.
  - rewrite IH1 by assumption. apply IH2. eapply Permutation_NoDup; [|exact Hn]. apply Permutation_map. assumption.
Qed.

Lemma from_string_order : forall env env' t, Permutation env env' -> NoDup (map fst env) ->
  (forall k v, In (k, v) env -> ident_key k /\ no_char pct v /\ plain v) ->
  wf t -> from_string (text_of t) env = from_string (text_of t) env'.
Proof.
  intros env env' t HP Hn He Hw. rewrite !from_string_correct; auto.
  - unfold subst. apply flat_map_ext. intros [l|k]; [reflexivity|]. cbn. rewrite (lookup_perm env env' k); auto.
  - eapply Permutation_NoDup; [|exact Hn]. apply Permutation_map. assumption.
  - intros k v Hin. apply He. eapply Permutation_in; [apply Permutation_sym; exact HP|exact Hin].
Qed.

Lemma prefixb_refl : forall p r, prefixb p (p ++ r) = true.
Proof. intros p r. apply prefixb_spec. exists r. reflexivity. Qed.
Lemma marker_doubled : forall K v, from_string (pattern K) [(K, doubled v)] = v.
Proof.
  intros K v. unfold from_string, regex_replace. cbn [fold_left fst snd].
  assert (R : forall n c r, prefixb (pattern K) (c :: r) = true ->
            replace (S n) (pattern K) (doubled v) [] (c :: r) =
            fmt (S (length (doubled v))) [] (pattern K) (skipn (length (pattern K)) (c :: r)) (doubled v) ++ replace n (pattern K) (doubled v) [] (skipn (length (pattern K)) (c :: r))).
  { intros n c r H. cbn [replace]. rewrite H. reflexivity. }
  assert (E : prefixb (pattern K) (pattern K) = true) by (rewrite <- (app_nil_r (pattern K)) at 2; apply prefixb_refl).
  specialize (R (length (pattern K)) pct (K ++ [pct]) E). change (pct :: K ++ [pct]) with (pattern K) in R. rewrite R, skipn_all, fmt_doubled by lia.
  destruct (length (pattern K)); cbn [replace]; apply app_nil_r.
Qed.
