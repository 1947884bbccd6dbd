(** Declarations, uses, and runs of the gathering of scopes. *)
From Coq Require Import String Ascii List Bool Arith Lia.
From Verif Require Import NameModel NameProofs ScopeModel ScopeProofs.
Import ListNotations.
Local Open Scope string_scope.
Local Open Scope list_scope.

Section Run.
  Variable ports ls ds : list string.
  Notation mg := (generated ls ds).
  Hypothesis ports_clean : forall q, In q ports -> ~ mg q.
  Notation wf := (ScopeProofs.wf ports ls ds).
  Notation good := (ScopeProofs.good ports).
  Notation ext := (ScopeProofs.ext ports ls ds).
  Notation frame := (ScopeProofs.frame ports ls ds).
  Notation perm_ok := (ScopeProofs.perm_ok ports).

  Lemma upd_sub_eq : forall l i f a, nth_error l i = Some a -> nth_error (upd_sub l i f) i = Some (f a).
  Proof.
    induction l as [|x r IH]; intros i f a H; destruct i as [|i]; try discriminate; cbn in *; [congruence|]. apply IH. exact H.
  Qed.
  Lemma upd_sub_neq : forall l i j f, i <> j -> nth_error (upd_sub l i f) j = nth_error l j.
  Proof.
    induction l as [|x r IH]; intros i j f H; destruct i as [|i]; destruct j as [|j]; try reflexivity; try lia.
    cbn. apply (IH i j f). lia.
  Qed.

  Lemma scopes_le : forall s b a, wf s -> b < s_n s -> In a (scopes s b) -> a < s_n s.
  Proof. intros s b a W Hb H. pose proof (chain_in_le ports ls ds (S b) s b a W Hb H). lia. Qed.

  Lemma var_name_gen : forall s c x, wf s -> c < s_n s -> In x ds ->
    (c = 0 /\ blockVIOName (b_name (s_blk s c)) x = x) \/ mg (blockVIOName (b_name (s_blk s c)) x).
  Proof.
    intros s c x W Hc Hx. destruct (Nat.eq_dec c 0) as [->|Hn].
    - left. split; [reflexivity|]. rewrite (proj1 (w_top _ _ _ _ W)). reflexivity.
    - right. destruct (w_bname _ _ _ _ W c ltac:(lia) Hc) as [A B]. unfold blockVIOName.
      destruct (String.eqb (b_name (s_blk s c)) "_top") eqn:E; [apply String.eqb_eq in E; contradiction|].
      destruct B as [[r B]|B].
      + left. exists (r ++ "_" ++ x)%string. rewrite B. reflexivity.
      + right. exists (b_name (s_blk s c)), x. split; [exact B|]. split; [exact Hx|reflexivity].
  Qed.

  Lemma decl_spec : forall s cur os p e x s' q, wf s -> good s cur os p e -> add_var ports s cur x = Some s' ->
    ~ mg x -> In x ds -> ~ In x q ->
    wf s' /\ good s' cur os p ((x, (length (s_vars s), true)) :: e) /\ frame s s' cur q
    /\ s_log s' = s_log s ++ match elook x e with Some _ => [LShadow (length (s_vars s))] | None => [] end
    /\ s_last s' = s_last s /\ s_n s' = s_n s /\ length (s_vars s') = S (length (s_vars s)).
  Proof.
    intros s cur os p e x s' q W G H Hmg Hds Hq. unfold add_var in H.
    pose proof (g_lt _ _ _ _ _ _ G) as Hcur. pose proof (g_sub _ _ _ _ _ _ G) as Hos. rewrite Hos in H.
    set (v := blockVIOName (b_name (s_blk s cur)) x) in *.
    set (s1 := match os with Some i => with_subs s (upd_sub (s_subs s) i (allow v)) (s_known s) | None => s end) in *.
    assert (S1 : s_blk s1 = s_blk s /\ s_n s1 = s_n s /\ s_vars s1 = s_vars s /\ s_log s1 = s_log s /\ s_last s1 = s_last s /\ s_known s1 = s_known s)
      by (unfold s1; destruct os; repeat split).
    destruct S1 as (Sb & Sn & Sv & Sl & Sa & Sk).
    assert (Ssc : scopes s1 cur = scopes s cur).
    { unfold scopes. apply (chain_same ports ls ds _ s s1 cur W Hcur). intros a _. rewrite Sb. reflexivity. }
    set (nb := {| b_name := b_name (s_blk s cur); b_par := b_par (s_blk s cur); b_rew := (x, v) :: b_rew (s_blk s cur);
                  b_decl := v :: b_decl (s_blk s cur); b_sub := os; b_may := b_may (s_blk s cur) |}) in *.
    assert (Hex : existsb (fun a => existsb (is_base s1 x) (b_decl (s_blk s1 a))) (scopes s1 cur) = match elook x e with Some _ => true | None => false end).
    { rewrite Ssc. pose proof (g_env _ _ _ _ _ _ G x) as He. destruct (elook x e) as [[i own]|].
      - destruct He as (w & Hw & _). destruct (g_scope _ _ _ _ _ _ G x w Hw) as (a & Ha & Hd). apply existsb_exists. exists a. split; [exact Ha|].
        apply existsb_exists. exists w. rewrite Sb. split; [exact Hd|]. unfold is_base. rewrite Sv, (g_base _ _ _ _ _ _ G x w Hw). apply String.eqb_refl.
      - destruct (existsb _ (scopes s cur)) eqn:E; [|reflexivity]. exfalso. apply existsb_exists in E. destruct E as (a & Ha & E).
        apply existsb_exists in E. destruct E as (w & Hw & E). unfold is_base in E. rewrite Sv in E. rewrite Sb in Hw.
        destruct (base_of (s_vars s) w) as [y|] eqn:B; [|discriminate]. apply String.eqb_eq in E. subst y.
        exact (g_all _ _ _ _ _ _ G a w x Ha Hw B He). }
    unfold available in H. rewrite Hex, Sk in H.
    destruct (mem x (s_known s)); [discriminate|]. destruct (mem x ports) eqn:Hpo; [discriminate|].
    destruct (mem v (var_names s1)) eqn:Hva; [discriminate|].
    assert (Hv : ~ In v (var_names s)) by (apply mem_false in Hva; unfold var_names in *; rewrite Sv in Hva; exact Hva).
    apply mem_false in Hpo.
    assert (Hgen : (cur = 0 /\ v = x) \/ mg v) by (apply var_name_gen; assumption).
    assert (Hvp : ~ In v ports).
    { destruct Hgen as [[_ Hg]|Hg]; [rewrite Hg; exact Hpo|]. intros Hin. exact (ports_clean v Hin Hg). }
    (* the resulting state *)
    assert (R : s_blk s' = upd (s_blk s) cur nb /\ s_n s' = s_n s /\ s_vars s' = s_vars s ++ [{| v_name := v; v_base := x |}]
                /\ s_subs s' = s_subs s1 /\ s_last s' = s_last s
                /\ s_log s' = s_log s ++ match elook x e with Some _ => [LShadow (length (s_vars s))] | None => [] end).
    { destruct (elook x e) as [[i own]|]; injection H as <-; cbn [with_vars with_blk say s_blk s_n s_vars s_subs s_last s_log];
        rewrite ?Sb, ?Sn, ?Sv, ?Sl, ?Sa, ?app_nil_r; repeat split; try reflexivity. }
    clear H. destruct R as (Rb & Rn & Rv & Rs & Ra & Rl).
    assert (Bcur : s_blk s' cur = nb) by (rewrite Rb; unfold upd; rewrite Nat.eqb_refl; reflexivity).
    assert (Bo : forall b, b <> cur -> s_blk s' b = s_blk s b).
    { intros b Hb. rewrite Rb. unfold upd. destruct (Nat.eqb b cur) eqn:E; [apply Nat.eqb_eq in E; contradiction|reflexivity]. }
    assert (Hdecl : forall b w, In w (b_decl (s_blk s b)) -> In w (b_decl (s_blk s' b))).
    { intros b w Hw. destruct (Nat.eq_dec b cur) as [->|Hb]; [rewrite Bcur; right; exact Hw|rewrite (Bo b Hb); exact Hw]. }
    assert (Hdecl2 : forall b w, In w (b_decl (s_blk s' b)) -> (b = cur /\ w = v) \/ In w (b_decl (s_blk s b))).
    { intros b w Hw. destruct (Nat.eq_dec b cur) as [->|Hb].
      - rewrite Bcur in Hw. destruct Hw as [Hw|Hw]; [left; split; [reflexivity|symmetry; exact Hw]|right; exact Hw].
      - rewrite (Bo b Hb) in Hw. right; exact Hw. }
    assert (Hpar : forall b, b_par (s_blk s' b) = b_par (s_blk s b)).
    { intros b. destruct (Nat.eq_dec b cur) as [->|Hb]; [rewrite Bcur; reflexivity|rewrite (Bo b Hb); reflexivity]. }
    assert (Hname : forall b, b_name (s_blk s' b) = b_name (s_blk s b)).
    { intros b. destruct (Nat.eq_dec b cur) as [->|Hb]; [rewrite Bcur; reflexivity|rewrite (Bo b Hb); reflexivity]. }
    assert (Hsc : forall b, b < s_n s -> scopes s' b = scopes s b).
    { intros b Hb. unfold scopes. apply (chain_same ports ls ds _ s s' b W Hb). intros a _. apply Hpar. }
    assert (Hnames : forall w, In w (var_names s') <-> In w (var_names s) \/ w = v).
    { intros w. rewrite (names_app s s' _ Rv), in_app_iff. cbn [map v_name In]. intuition congruence. }
    assert (Hbase : forall w, In w (var_names s) -> base_of (s_vars s') w = base_of (s_vars s) w).
    { intros w Hw. rewrite Rv. apply base_app_in. exact Hw. }
    assert (Hbv : base_of (s_vars s') v = Some x) by (rewrite Rv; apply base_last; exact Hv).
    assert (Hsub : forall i a, nth_error (s_subs s) i = Some a -> nth_error (s_subs s') i = Some (if match os with Some j => Nat.eqb j i | None => false end then allow v a else a)).
    { intros i a Ha. rewrite Rs. unfold s1. destruct os as [j|]; [|exact Ha]. cbn [with_subs s_subs].
      destruct (Nat.eqb j i) eqn:E; [apply Nat.eqb_eq in E; subst j; apply upd_sub_eq; exact Ha|].
      rewrite upd_sub_neq; [exact Ha|apply Nat.eqb_neq in E; exact E]. }
    assert (Hmem : forall w l, w <> v -> mem w (v :: l) = mem w l).
    { intros w l Hw. unfold mem. cbn [existsb]. destruct (String.eqb w v) eqn:E; [apply String.eqb_eq in E; contradiction|reflexivity]. }
    assert (Hmv : forall l, mem v (v :: l) = true) by (intros l; unfold mem; cbn [existsb]; rewrite String.eqb_refl; reflexivity).
    assert (Hold : forall y w, lookup y (b_rew (s_blk s cur)) = Some w -> In w (var_names s)).
    { intros y w Hw. exact (good_names ports ls ds s cur os p e y w W G Hw). }
    assert (Hpn : forall w, In w (var_names s) \/ In w ports -> w <> v) by (intros w [Hw|Hw] ->; contradiction).
    split; [|split; [|split; [|split; [exact Rl|split; [exact Ra|split; [exact Rn|]]]]]].
    - (* wf *)
      constructor.
      + rewrite Rn. exact (w_0 _ _ _ _ W).
      + rewrite Hname, Hpar. exact (w_top _ _ _ _ W).
      + intros b H1 H2. rewrite Hpar. rewrite Rn in H2. exact (w_par _ _ _ _ W b H1 H2).
      + rewrite (names_app s s' _ Rv). cbn [map v_name].
        assert (Z : forall l, NoDup l -> ~ In v l -> NoDup (l ++ [v])).
        { induction l as [|a r IH]; intros Hl Hi; cbn [app]; [constructor; [intros []|constructor]|].
          inversion Hl; subst. cbn [In] in Hi. constructor; [rewrite in_app_iff; cbn [In]; intuition congruence|apply IH; [assumption|tauto]]. }
        apply Z; [exact (w_nodup _ _ _ _ W)|exact Hv].
      + intros w Hw. apply Hnames in Hw. destruct Hw as [Hw| ->].
        * destruct (w_names _ _ _ _ W w Hw) as [Hg|[Hg1 Hg2]]; [left; exact Hg|right]. split; [apply Hdecl; exact Hg1|rewrite Hbase; [exact Hg2|exact Hw]].
        * destruct Hgen as [[Hc Hg]|Hg]; [right|left; exact Hg]. split; [|rewrite Hbv, Hg; reflexivity].
          rewrite <- Hc, Bcur. left. reflexivity.
      + intros w Hw. apply Hnames in Hw. destruct Hw as [Hw| ->]; [exact (w_ports _ _ _ _ W w Hw)|exact Hvp].
      + intros b H1 H2. rewrite Hname. rewrite Rn in H2. exact (w_bname _ _ _ _ W b H1 H2).
      + intros b y H1 H2. rewrite Rn in H1. destruct (Nat.eq_dec b cur) as [->|Hb].
        * rewrite Bcur in H2. unfold nb in H2. cbn [b_rew lookup] in H2. destruct (String.eqb y x) eqn:E.
          -- apply String.eqb_eq in E. subst y. exact Hmg.
          -- exact (w_keys _ _ _ _ W cur y H1 H2).
        * rewrite (Bo b Hb) in H2. exact (w_keys _ _ _ _ W b y H1 H2).
      + intros b w H1 H2. rewrite Rn in H1. apply Hnames. apply Hdecl2 in H2. destruct H2 as [[_ ->]|H2]; [right; reflexivity|left].
        exact (w_decl _ _ _ _ W b w H1 H2).
    - (* good *)
      constructor.
      + rewrite Rn. exact Hcur.
      + rewrite Bcur. reflexivity.
      + intros y. rewrite Bcur. unfold nb. cbn [b_rew lookup elook]. destruct (String.eqb y x) eqn:E.
        * exists v. split; [reflexivity|]. rewrite Rv. apply index_last. exact Hv.
        * pose proof (g_env _ _ _ _ _ _ G y) as Hy. destruct (elook y e) as [[i own]|]; [|exact Hy].
          destruct Hy as (w & H1 & H2). exists w. split; [exact H1|]. rewrite Rv. apply index_app. exact H2.
      + intros y w Hy. rewrite Bcur in Hy. unfold nb in Hy. cbn [b_rew lookup] in Hy. rewrite (Hsc cur Hcur). destruct (String.eqb y x) eqn:E.
        * injection Hy as <-. exists cur. split; [apply scopes_self|]. rewrite Bcur. left. reflexivity.
        * destruct (g_scope _ _ _ _ _ _ G y w Hy) as (a & Ha & Hw). exists a. split; [exact Ha|apply Hdecl; exact Hw].
      + intros a w y Ha Hw Hy. rewrite (Hsc cur Hcur) in Ha. rewrite Bcur. unfold nb. cbn [b_rew lookup].
        destruct (String.eqb y x) eqn:E; [discriminate|]. apply Hdecl2 in Hw. destruct Hw as [[_ ->]|Hw].
        * rewrite Hbv in Hy. injection Hy as <-. rewrite String.eqb_refl in E. discriminate.
        * apply (g_all _ _ _ _ _ _ G a w y Ha Hw). rewrite <- Hbase; [exact Hy|].
          apply (w_decl _ _ _ _ W a w); [exact (scopes_le s cur a W Hcur Ha)|exact Hw].
      + intros y w Hy. rewrite Bcur in Hy. unfold nb in Hy. cbn [b_rew lookup] in Hy. destruct (String.eqb y x) eqn:E.
        * injection Hy as <-. apply String.eqb_eq in E. subst y. exact Hbv.
        * rewrite (Hbase w (Hold y w Hy)). exact (g_base _ _ _ _ _ _ G y w Hy).
      + pose proof (g_perm _ _ _ _ _ _ G) as P. rewrite Bcur. unfold nb. cbn [b_rew]. unfold ScopeProofs.perm_ok in *.
        destruct os as [i|]; destruct p as [[R Wr]|]; try exact P. destruct P as (a & Ha & P1 & P2).
        exists (allow v a). split; [rewrite (Hsub i a Ha), Nat.eqb_refl; reflexivity|]. split.
        * intros y j own w He Hl. cbn [elook lookup] in He, Hl. cbn [allow u_reads u_writes]. destruct (String.eqb y x).
          -- injection He as <- <-. injection Hl as <-. rewrite !Hmv. split; reflexivity.
          -- pose proof (Hpn w (or_introl (Hold y w Hl))) as Hn. rewrite !(Hmem w _ Hn). exact (P1 y j own w He Hl).
        * intros qq Hqq. cbn [allow u_reads u_writes]. pose proof (Hpn qq (or_intror Hqq)) as Hn. rewrite !(Hmem qq _ Hn). exact (P2 qq Hqq).
    - (* frame *)
      constructor.
      + lia.
      + intros b Hb Hn. unfold same. rewrite (Bo b Hn). repeat split.
      + apply Hpar.
      + rewrite Bcur. symmetry. exact Hos.
      + apply Hname.
      + intros y Hy. rewrite Bcur. unfold nb. cbn [b_rew lookup]. destruct (String.eqb y x) eqn:E; [|reflexivity].
        apply String.eqb_eq in E. subst y. contradiction.
      + intros w Hw. apply Hdecl. exact Hw.
      + eexists. split; [exact Rv|]. intros w [<-|[]]. cbn [v_name]. destruct Hgen as [[Hc Hg]|Hg]; [right|left; exact Hg].
        split; [exact Hc|rewrite Hg; exact Hq].
      + intros i a Ha. eexists. split; [exact (Hsub i a Ha)|]. intros w Hw. pose proof (Hpn w Hw) as Hn.
        destruct (match os with Some j => Nat.eqb j i | None => false end); [|split; reflexivity].
        cbn [allow u_reads u_writes]. rewrite !(Hmem w _ Hn). split; reflexivity.
    - rewrite Rv, app_length. cbn [length]. lia.
  Qed.

  (** ** Uses *)
  Definition ok (s : st) (l : log) (e : event) : Prop :=
    match l, e with
    | LUse u w x b, EUse u' t d =>
        u = u' /\ b < s_n s /\ ~ mg x
        /\ (lookup x (b_rew (s_blk s b)) = None
            \/ exists v, lookup x (b_rew (s_blk s b)) = Some v /\ In v (var_names s) /\ (v = x \/ mg v))
        /\ (forall i, b_sub (s_blk s b) = Some i -> nth_error (s_subs s) i <> None)
        /\ resolve ports s b x = t /\ denied ports s b w x = d /\ in_scope ports s b x = true
    | LShadow n, EShadow m => n = m
    | _, _ => False
    end.

  Lemma translate_twice : forall s b x, wf s -> b < s_n s ->
    (lookup x (b_rew (s_blk s b)) = None \/ exists v, lookup x (b_rew (s_blk s b)) = Some v /\ In v (var_names s) /\ (v = x \/ mg v)) ->
    translate s b (translate s b x) = translate s b x.
  Proof.
    intros s b x W Hb H. unfold translate, rewrite1. destruct H as [H|(v & H & _ & [->|Hg])].
    - rewrite H, H. reflexivity.
    - rewrite H, H. reflexivity.
    - rewrite H. destruct (lookup v (b_rew (s_blk s b))) as [w|] eqn:E; [|reflexivity]. exfalso.
      apply (w_keys _ _ _ _ W b v Hb); [rewrite E; discriminate|exact Hg].
  Qed.

  Lemma index_of_in : forall vs v, In v (map v_name vs) -> exists i, index_of vs v = Some i.
  Proof.
    intros vs v H. destruct (index_of vs v) as [i|] eqn:E; [exists i; reflexivity|]. apply index_none in E. contradiction.
  Qed.

  Lemma use_ok : forall s cur os p e u w x, wf s -> good s cur os p e -> ~ mg x -> ok s (LUse u w x cur) (use ports p e u w x).
  Proof.
    intros s cur os p e u w x W G Hx. pose proof (g_lt _ _ _ _ _ _ G) as Hcur. unfold ok, use.
    assert (C : lookup x (b_rew (s_blk s cur)) = None \/ exists v, lookup x (b_rew (s_blk s cur)) = Some v /\ In v (var_names s) /\ (v = x \/ mg v)).
    { destruct (lookup x (b_rew (s_blk s cur))) as [v|] eqn:E; [right|left; reflexivity]. exists v. split; [reflexivity|].
      pose proof (good_names ports ls ds s cur os p e x v W G E) as Hin. split; [exact Hin|].
      destruct (w_names _ _ _ _ W v Hin) as [Hg|[_ Hb]]; [right; exact Hg|left].
      pose proof (g_base _ _ _ _ _ _ G x v E). congruence. }
    split; [reflexivity|]. split; [exact Hcur|]. split; [exact Hx|]. split; [exact C|]. split.
    { intros i Hi. rewrite (g_sub _ _ _ _ _ _ G) in Hi. subst os. pose proof (g_perm _ _ _ _ _ _ G) as P. unfold ScopeProofs.perm_ok in P.
      destruct p as [[R Wr]|]; [|contradiction]. destruct P as (a & Ha & _). rewrite Ha. discriminate. }
    pose proof (g_env _ _ _ _ _ _ G x) as He. pose proof (translate_twice s cur x W Hcur C) as Htt.
    assert (D : designates ports s (translate s cur x) = means ports e x).
    { unfold designates, means, translate, rewrite1. destruct (elook x e) as [[i own]|].
      - destruct He as (v & Hl & Hi). rewrite Hl. destruct (mem v ports) eqn:Ep.
        + apply mem_In in Ep. exfalso. exact (w_ports _ _ _ _ W v (proj1 (index_some _ _ _ Hi)) Ep).
        + rewrite Hi. reflexivity.
      - rewrite He. destruct (mem x ports) eqn:Ep; [reflexivity|].
        destruct (index_of (s_vars s) x) as [i|] eqn:Ei; [|reflexivity]. exfalso.
        destruct (index_some _ _ _ Ei) as [Hin _]. destruct (w_names _ _ _ _ W x Hin) as [Hg|[Hd Hb]]; [contradiction|].
        exact (g_all _ _ _ _ _ _ G 0 x x (scopes_root ports ls ds s cur W Hcur) Hd Hb He). }
    split; [exact D|]. split.
    - unfold denied. rewrite Htt, D, (g_sub _ _ _ _ _ _ G). pose proof (g_perm _ _ _ _ _ _ G) as P. unfold ScopeProofs.perm_ok in P.
      unfold refused, means. destruct os as [i|]; destruct p as [[R Wr]|]; try contradiction; [|reflexivity].
      destruct P as (a & Ha & P1 & P2). rewrite Ha. unfold translate, rewrite1. destruct (elook x e) as [[j own]|] eqn:Ee.
      + destruct He as (v & Hl & Hi). rewrite Hl. destruct (P1 x j own v Ee Hl) as [A B]. destruct w; [rewrite B|rewrite A]; reflexivity.
      + rewrite He. destruct (mem x ports) eqn:Ep; [|reflexivity]. apply mem_In in Ep. destruct (P2 x Ep) as [A B].
        destruct w; [rewrite B|rewrite A]; reflexivity.
    - unfold in_scope. rewrite D. unfold means. destruct (elook x e) as [[j own]|] eqn:Ee; [|destruct (mem x ports); reflexivity].
      destruct He as (v & Hl & Hi). unfold translate, rewrite1. rewrite Hl. apply existsb_exists.
      destruct (g_scope _ _ _ _ _ _ G x v Hl) as (a & Ha & Hd). exists a. split; [exact Ha|apply mem_In; exact Hd].
  Qed.

  Definition where_ok (l : log) (c : nat) (q : list string) : Prop :=
    match l with LUse u w x b => (b = c -> In x q) /\ (c = 0 -> In x q) | LShadow _ => True end.

  Lemma ok_lift : forall s s' c q l e, wf s -> wf s' -> frame s s' c q -> ok s l e -> where_ok l c q -> ok s' l e.
  Proof.
    intros s s' c q l e W W' F H Hw. destruct l as [u w x b|n]; destruct e as [u' t d|m]; try exact H. cbn [ok where_ok] in *.
    destruct H as (Hu & Hb & Hx & C & Hi & Hr & Hd & Hs). destruct Hw as [Hw1 Hw2]. destruct (f_vars _ _ _ _ _ _ _ F) as (vs & Ev & Mv).
    pose proof (f_n _ _ _ _ _ _ _ F) as Hn.
    assert (L : lookup x (b_rew (s_blk s' b)) = lookup x (b_rew (s_blk s b))).
    { destruct (Nat.eq_dec b c) as [->|Hbc]; [apply (f_rew _ _ _ _ _ _ _ F); apply Hw1; reflexivity|].
      destruct (f_same _ _ _ _ _ _ _ F b Hb Hbc) as (_ & _ & X & _). rewrite X. reflexivity. }
    assert (T : translate s' b x = translate s b x) by (unfold translate, rewrite1; rewrite L; reflexivity).
    assert (Hb' : b < s_n s') by lia.
    assert (C' : lookup x (b_rew (s_blk s' b)) = None \/ exists v, lookup x (b_rew (s_blk s' b)) = Some v /\ In v (var_names s') /\ (v = x \/ mg v)).
    { rewrite L. destruct C as [C|(v & C1 & C2 & C3)]; [left; exact C|right]. exists v. split; [exact C1|]. split; [|exact C3].
      rewrite (names_app s s' vs Ev). apply in_or_app. left. exact C2. }
    assert (D : designates ports s' (translate s b x) = designates ports s (translate s b x)).
    { unfold designates. destruct (mem (translate s b x) ports); [reflexivity|]. f_equal. rewrite Ev.
      destruct (index_of (s_vars s) (translate s b x)) as [i|] eqn:Ei; [apply index_app; exact Ei|].
      apply index_none. rewrite map_app, in_app_iff. apply index_none in Ei. intros [H|H]; [contradiction|].
      assert (Tx : translate s b x = x).
      { unfold translate, rewrite1 in *. destruct C as [C|(v & C1 & C2 & C3)]; [rewrite C; reflexivity|]. rewrite C1 in *. contradiction. }
      rewrite Tx in H. destruct (Mv x H) as [Hg|[H0 Hq]]; [contradiction|]. apply Hq, Hw2, H0. }
    assert (Sb : b_sub (s_blk s' b) = b_sub (s_blk s b)).
    { destruct (Nat.eq_dec b c) as [->|Hbc]; [apply (f_sub _ _ _ _ _ _ _ F)|]. destruct (f_same _ _ _ _ _ _ _ F b Hb Hbc) as (_ & _ & _ & _ & X). exact X. }
    split; [exact Hu|]. split; [exact Hb'|]. split; [exact Hx|]. split; [exact C'|]. split.
    { intros i Ei. rewrite Sb in Ei. specialize (Hi i Ei). destruct (nth_error (s_subs s) i) as [a|] eqn:Ea; [|contradiction].
      destruct (f_subs _ _ _ _ _ _ _ F i a Ea) as (a' & Ha' & _). rewrite Ha'. discriminate. }
    split; [|split].
    - unfold resolve in *. rewrite T, D. exact Hr.
    - rewrite <- Hd. unfold denied. rewrite (translate_twice s b x W Hb C), (translate_twice s' b x W' Hb' C'), T, D, Sb.
      destruct (b_sub (s_blk s b)) as [i|] eqn:Es; [|reflexivity]. destruct (designates ports s (translate s b x)) as [t'|] eqn:Ed; [|reflexivity].
      assert (Hin : In (translate s b x) (var_names s) \/ In (translate s b x) ports).
      { unfold designates in Ed. destruct (mem (translate s b x) ports) eqn:Em; [right; apply mem_In; exact Em|left].
        destruct (index_of (s_vars s) (translate s b x)) as [j|] eqn:Ei; [|discriminate]. exact (proj1 (index_some _ _ _ Ei)). }
      destruct (nth_error (s_subs s) i) as [a|] eqn:Ea.
      + destruct (f_subs _ _ _ _ _ _ _ F i a Ea) as (a' & Ha' & M). rewrite Ha'. destruct (M _ Hin) as [A B]. destruct w; [rewrite B|rewrite A]; reflexivity.
      + exfalso. exact (Hi i eq_refl Ea).
    - unfold in_scope in *. rewrite T, D. destruct (designates ports s (translate s b x)) as [[y|j]|]; [reflexivity| |reflexivity].
      apply existsb_exists in Hs. destruct Hs as (a & Ha & Hm). apply existsb_exists. exists a.
      rewrite (frame_scopes ports ls ds s s' c q b W F Hb). split; [exact Ha|]. apply mem_In in Hm. apply mem_In.
      pose proof (scopes_le s b a W Hb Ha) as Hlt. destruct (Nat.eq_dec a c) as [->|Hac]; [apply (f_decl _ _ _ _ _ _ _ F); exact Hm|].
      destruct (f_same _ _ _ _ _ _ _ F a Hlt Hac) as (_ & _ & _ & X & _). rewrite X. exact Hm.
  Qed.
End Run.
