(** Invariants of the gathering of scopes. *)
From Coq Require Import String Ascii List Bool Arith Lia.
From Verif Require Import NameModel NameProofs ScopeModel.
Import ListNotations.
Local Open Scope string_scope.
Local Open Scope list_scope.

Section Inv.
  Variable ports ls ds : list string.
  Notation mg := (generated ls ds).
  Hypothesis ports_clean : forall q, In q ports -> ~ mg q.

  Definition same (s s' : st) (b : nat) : Prop :=
    b_name (s_blk s' b) = b_name (s_blk s b) /\ b_par (s_blk s' b) = b_par (s_blk s b) /\ b_rew (s_blk s' b) = b_rew (s_blk s b)
    /\ b_decl (s_blk s' b) = b_decl (s_blk s b) /\ b_sub (s_blk s' b) = b_sub (s_blk s b).

  Definition subs_ok (s s' : st) : Prop :=
    forall i a, nth_error (s_subs s) i = Some a -> exists a', nth_error (s_subs s') i = Some a' /\
      forall v, In v (var_names s) \/ In v ports -> mem v (u_reads a') = mem v (u_reads a) /\ mem v (u_writes a') = mem v (u_writes a).

  Record frame (s s' : st) (c : nat) (q : list string) : Prop := {
    f_n : s_n s <= s_n s';
    f_same : forall b, b < s_n s -> b <> c -> same s s' b;
    f_par : b_par (s_blk s' c) = b_par (s_blk s c);
    f_sub : b_sub (s_blk s' c) = b_sub (s_blk s c);
    f_name : b_name (s_blk s' c) = b_name (s_blk s c);
    f_rew : forall x, In x q -> lookup x (b_rew (s_blk s' c)) = lookup x (b_rew (s_blk s c));
    f_decl : incl (b_decl (s_blk s c)) (b_decl (s_blk s' c));
    f_vars : exists vs, s_vars s' = s_vars s ++ vs /\ forall v, In v (map v_name vs) -> mg v \/ (c = 0 /\ ~ In v q);
    f_subs : subs_ok s s' }.

  Definition ext (s s' : st) : Prop :=
    s_n s <= s_n s' /\ (forall b, b < s_n s -> same s s' b)
    /\ (exists vs, s_vars s' = s_vars s ++ vs /\ forall v, In v (map v_name vs) -> mg v)
    /\ subs_ok s s'.

  Record wf (s : st) : Prop := {
    w_0 : 0 < s_n s;
    w_top : b_name (s_blk s 0) = "_top" /\ b_par (s_blk s 0) = None;
    w_par : forall b, 0 < b -> b < s_n s -> exists p, b_par (s_blk s b) = Some p /\ p < b;
    w_nodup : NoDup (var_names s);
    w_names : forall v, In v (var_names s) -> mg v \/ (In v (b_decl (s_blk s 0)) /\ base_of (s_vars s) v = Some v);
    w_ports : forall v, In v (var_names s) -> ~ In v ports;
    w_bname : forall b, 0 < b -> b < s_n s -> b_name (s_blk s b) <> "_top" /\ ((exists r, b_name (s_blk s b) = String "_" r) \/ In (b_name (s_blk s b)) ls);
    w_keys : forall b x, b < s_n s -> lookup x (b_rew (s_blk s b)) <> None -> ~ mg x;
    w_decl : forall b v, b < s_n s -> In v (b_decl (s_blk s b)) -> In v (var_names s) }.

  Definition perm_ok (s : st) (os : option nat) (p : perms) (e : env) (r : rules) : Prop :=
    match os, p with
    | None, None => True
    | Some i, Some (R, W) =>
        exists a, nth_error (s_subs s) i = Some a
        /\ (forall x j own v, elook x e = Some (j, own) -> lookup x r = Some v ->
              mem v (u_reads a) = own || tmem (TVar j) R /\ mem v (u_writes a) = own || tmem (TVar j) W)
        /\ (forall q, In q ports -> mem q (u_reads a) = tmem (TPort q) R /\ mem q (u_writes a) = tmem (TPort q) W)
    | _, _ => False
    end.

  Record good (s : st) (b : nat) (os : option nat) (p : perms) (e : env) : Prop := {
    g_lt : b < s_n s;
    g_sub : b_sub (s_blk s b) = os;
    g_env : forall x, match elook x e with
                      | Some (i, _) => exists v, lookup x (b_rew (s_blk s b)) = Some v /\ index_of (s_vars s) v = Some i
                      | None => lookup x (b_rew (s_blk s b)) = None
                      end;
    g_scope : forall x v, lookup x (b_rew (s_blk s b)) = Some v -> exists a, In a (scopes s b) /\ In v (b_decl (s_blk s a));
    g_all : forall a v x, In a (scopes s b) -> In v (b_decl (s_blk s a)) -> base_of (s_vars s) v = Some x -> lookup x (b_rew (s_blk s b)) <> None;
    g_base : forall x v, lookup x (b_rew (s_blk s b)) = Some v -> base_of (s_vars s) v = Some x;
    g_perm : perm_ok s os p e (b_rew (s_blk s b)) }.

  (** ** Lists of variables *)
  Lemma index_app : forall vs ws v i, index_of vs v = Some i -> index_of (vs ++ ws) v = Some i.
  Proof.
    induction vs as [|a r IH]; intros ws v i H; [discriminate|]. cbn [index_of app] in *.
    destruct (String.eqb v (v_name a)); [exact H|]. destruct (index_of r v) as [j|] eqn:E; [|discriminate].
    rewrite (IH ws v j E). exact H.
  Qed.
  Lemma index_none : forall vs v, index_of vs v = None <-> ~ In v (map v_name vs).
  Proof.
    induction vs as [|a r IH]; intros v; cbn [index_of map In]; [tauto|].
    destruct (String.eqb v (v_name a)) eqn:E.
    - apply String.eqb_eq in E. split; [discriminate|]. intros H. exfalso. apply H. left. congruence.
    - apply String.eqb_neq in E. specialize (IH v). destruct (index_of r v) as [j|]; cbn [option_map].
      + split; [discriminate|]. intros H. exfalso. assert (X : Some j <> None) by discriminate. apply X. apply IH. tauto.
      + split; [|reflexivity]. intros _ [H|H]; [congruence|]. apply IH in H; [exact H|reflexivity].
  Qed.
  Lemma index_last : forall vs v b, ~ In v (map v_name vs) -> index_of (vs ++ [{| v_name := v; v_base := b |}]) v = Some (length vs).
  Proof.
    induction vs as [|a r IH]; intros v b H; cbn [index_of app length v_name].
    - rewrite String.eqb_refl. reflexivity.
    - cbn [map In] in H. destruct (String.eqb v (v_name a)) eqn:E; [apply String.eqb_eq in E; exfalso; apply H; left; congruence|].
      rewrite (IH v b) by tauto. reflexivity.
  Qed.
  Lemma index_some : forall vs v i, index_of vs v = Some i -> In v (map v_name vs) /\ i < length vs.
  Proof.
    induction vs as [|a r IH]; intros v i H; [discriminate|]. cbn [index_of map In length] in *.
    destruct (String.eqb v (v_name a)) eqn:E.
    - apply String.eqb_eq in E. injection H as <-. split; [left; congruence|lia].
    - destruct (index_of r v) as [j|] eqn:F; [|discriminate]. injection H as <-. destruct (IH v j F). split; [tauto|lia].
  Qed.
  Lemma index_inj : forall vs v w i, index_of vs v = Some i -> index_of vs w = Some i -> v = w.
  Proof.
    induction vs as [|a r IH]; intros v w i Hv Hw; [discriminate|]. cbn [index_of] in *.
    destruct (String.eqb v (v_name a)) eqn:E; destruct (String.eqb w (v_name a)) eqn:F.
    - apply String.eqb_eq in E, F. congruence.
    - injection Hv as <-. destruct (index_of r w); discriminate.
    - injection Hw as <-. destruct (index_of r v); discriminate.
    - destruct (index_of r v) as [j|] eqn:G; [|discriminate]. destruct (index_of r w) as [k|] eqn:H; [|discriminate].
      injection Hv as <-. injection Hw as H1. subst k. exact (IH v w j G H).
  Qed.
  Lemma base_app : forall vs ws v x, base_of vs v = Some x -> base_of (vs ++ ws) v = Some x.
  Proof.
    induction vs as [|a r IH]; intros ws v x H; [discriminate|]. cbn [base_of app] in *.
    destruct (String.eqb v (v_name a)); [exact H|]. apply IH. exact H.
  Qed.
  Lemma base_in : forall vs v, In v (map v_name vs) -> exists x, base_of vs v = Some x.
  Proof.
    induction vs as [|a r IH]; intros v H; [contradiction|]. cbn [base_of map In] in *.
    destruct (String.eqb v (v_name a)) eqn:E; [eexists; reflexivity|]. apply String.eqb_neq in E.
    apply IH. destruct H as [H|H]; [congruence|exact H].
  Qed.
  Lemma base_app_in : forall vs ws v, In v (map v_name vs) -> base_of (vs ++ ws) v = base_of vs v.
  Proof. intros vs ws v H. destruct (base_in vs v H) as [x E]. rewrite E. apply base_app. exact E. Qed.
  Lemma base_last : forall vs v x, ~ In v (map v_name vs) -> base_of (vs ++ [{| v_name := v; v_base := x |}]) v = Some x.
  Proof.
    induction vs as [|a r IH]; intros v x H; cbn [base_of app v_name v_base].
    - rewrite String.eqb_refl. reflexivity.
    - cbn [map In] in H. destruct (String.eqb v (v_name a)) eqn:E; [apply String.eqb_eq in E; exfalso; apply H; left; congruence|].
      apply IH. tauto.
  Qed.
  Lemma mem_false : forall x l, mem x l = false <-> ~ In x l.
  Proof. intros x l. rewrite <- mem_In. destruct (mem x l); split; congruence. Qed.

  (** ** Scopes *)
  Lemma chain_in_le : forall f s b a, wf s -> b < s_n s -> In a (chain f s b) -> a <= b.
  Proof.
    induction f as [|f IH]; intros s b a W Hb H; [contradiction|]. cbn [chain In] in H. destruct H as [H|H]; [lia|].
    destruct (b_par (s_blk s b)) as [p|] eqn:E; [|contradiction].
    destruct (Nat.eq_dec b 0) as [->|Hn]; [rewrite (proj2 (w_top s W)) in E; discriminate|].
    destruct (w_par s W b ltac:(lia) Hb) as (p' & Hp & Hlt). assert (p' = p) by congruence. subst p'.
    specialize (IH s p a W ltac:(lia) H). lia.
  Qed.
  Lemma chain_same : forall f s s' b, wf s -> b < s_n s -> (forall a, a <= b -> b_par (s_blk s' a) = b_par (s_blk s a)) -> chain f s' b = chain f s b.
  Proof.
    induction f as [|f IH]; intros s s' b W Hb H; [reflexivity|]. cbn [chain]. f_equal. rewrite (H b (le_n b)).
    destruct (b_par (s_blk s b)) as [p|] eqn:E; [|reflexivity].
    destruct (Nat.eq_dec b 0) as [->|Hn]; [rewrite (proj2 (w_top s W)) in E; discriminate|].
    destruct (w_par s W b ltac:(lia) Hb) as (p' & Hp & Hlt). assert (p' = p) by congruence. subst p'.
    apply IH; [exact W|lia|]. intros a Ha. apply H. lia.
  Qed.
  Lemma chain_fuel : forall f g s b, wf s -> b < s_n s -> b < f -> b < g -> chain f s b = chain g s b.
  Proof.
    induction f as [|f IH]; intros g s b W Hb Hf Hg; [lia|]. destruct g as [|g]; [lia|]. cbn [chain]. f_equal.
    destruct (b_par (s_blk s b)) as [p|] eqn:E; [|reflexivity].
    destruct (Nat.eq_dec b 0) as [->|Hn]; [rewrite (proj2 (w_top s W)) in E; discriminate|].
    destruct (w_par s W b ltac:(lia) Hb) as (p' & Hp & Hlt). assert (p' = p) by congruence. subst p'.
    apply IH; [exact W|lia|lia|lia].
  Qed.
  Lemma scopes_child : forall s b c, wf s -> b < s_n s -> b_par (s_blk s b) = Some c -> c < b -> scopes s b = b :: scopes s c.
  Proof.
    intros s b c W Hb E Hc. unfold scopes. cbn [chain]. f_equal. rewrite E. change (chain b s c = chain (S c) s c).
    apply chain_fuel; [exact W|lia|lia|lia].
  Qed.
  Lemma scopes_self : forall s b, In b (scopes s b).
  Proof. intros s b. unfold scopes. cbn [chain]. left. reflexivity. Qed.
  Lemma chain_root : forall f s b, wf s -> b < s_n s -> b < f -> In 0 (chain f s b).
  Proof.
    induction f as [|f IH]; intros s b W Hb Hf; [lia|]. cbn [chain]. destruct (Nat.eq_dec b 0) as [->|Hn]; [left; reflexivity|].
    right. destruct (w_par s W b ltac:(lia) Hb) as (p & Hp & Hlt). rewrite Hp. apply IH; [exact W|lia|lia].
  Qed.
  Lemma scopes_root : forall s b, wf s -> b < s_n s -> In 0 (scopes s b).
  Proof. intros s b W Hb. unfold scopes. apply chain_root; [exact W|exact Hb|lia]. Qed.

  (** ** Frames *)
  Lemma same_refl : forall s b, same s s b.
  Proof. intros. repeat split. Qed.
  Lemma same_trans : forall a b c k, same a b k -> same b c k -> same a c k.
  Proof. intros a b c k (A & B & C & D & E) (A' & B' & C' & D' & E'). repeat split; congruence. Qed.
  Lemma subs_refl : forall s, subs_ok s s.
  Proof. intros s i a H. exists a. split; [exact H|]. intros; split; reflexivity. Qed.
  Lemma names_app : forall s s' vs, s_vars s' = s_vars s ++ vs -> var_names s' = var_names s ++ map v_name vs.
  Proof. intros s s' vs H. unfold var_names. rewrite H, map_app. reflexivity. Qed.
  Lemma subs_trans : forall a b c, subs_ok a b -> subs_ok b c -> (exists vs, s_vars b = s_vars a ++ vs) -> subs_ok a c.
  Proof.
    intros a b c H1 H2 [vs Hv] i k Hi. destruct (H1 i k Hi) as (k' & Hk & M). destruct (H2 i k' Hk) as (k2 & Hk2 & M2).
    exists k2. split; [exact Hk2|]. intros v Hin. destruct (M v Hin) as [A B].
    assert (Hin' : In v (var_names b) \/ In v ports).
    { destruct Hin as [Hin|Hin]; [left|right; exact Hin]. rewrite (names_app a b vs Hv). apply in_or_app. left. exact Hin. }
    destruct (M2 v Hin') as [A' B']. split; congruence.
  Qed.
  Lemma ext_refl : forall s, ext s s.
  Proof.
    intros s. split; [lia|]. split; [intros; apply same_refl|]. split; [|apply subs_refl].
    exists []. split; [symmetry; apply app_nil_r|]. intros v [].
  Qed.
  Lemma ext_trans : forall a b c, ext a b -> ext b c -> ext a c.
  Proof.
    intros a b c (N1 & S1 & (v1 & E1 & M1) & U1) (N2 & S2 & (v2 & E2 & M2) & U2). split; [lia|].
    split; [|split].
    - intros k Hk. apply (same_trans a b c k); [apply S1; exact Hk|apply S2; lia].
    - exists (v1 ++ v2). split; [rewrite E2, E1, app_assoc; reflexivity|]. intros v H. rewrite map_app in H. apply in_app_or in H.
      destruct H; [apply M1|apply M2]; assumption.
    - apply (subs_trans a b c U1 U2). exists v1. exact E1.
  Qed.
  Lemma frame_refl : forall s c q, frame s s c q.
  Proof.
    intros s c q. constructor; try reflexivity.
    - intros; apply same_refl.
    - intros v H; exact H.
    - exists []. split; [symmetry; apply app_nil_r|]. intros v [].
    - apply subs_refl.
  Qed.
  Lemma ext_frame : forall s s' c q, ext s s' -> c < s_n s -> frame s s' c q.
  Proof.
    intros s s' c q (N & S & (vs & E & M) & U) Hc. destruct (S c Hc) as (A & B & C & D & F). constructor.
    - exact N.
    - intros b Hb _. apply S. exact Hb.
    - exact B.
    - exact F.
    - exact A.
    - intros x _. rewrite C. reflexivity.
    - rewrite D. intros v H; exact H.
    - exists vs. split; [exact E|]. intros v H. left. apply M. exact H.
    - exact U.
  Qed.
  Lemma ext_step : forall a b c k q, ext a b -> frame b c k q -> s_n a <= k -> wf a -> ext a c.
  Proof.
    intros a b c k q (N1 & S1 & (v1 & E1 & M1) & U1) F Hk W. destruct (f_vars _ _ _ _ F) as (v2 & E2 & M2). pose proof (f_n _ _ _ _ F) as HF. split; [lia|].
    pose proof (w_0 a W) as H0. split; [|split].
    - intros d Hd. apply (same_trans a b c d); [apply S1; exact Hd|]. apply (f_same _ _ _ _ F); lia.
    - exists (v1 ++ v2). split; [rewrite E2, E1, app_assoc; reflexivity|]. intros v Hv. rewrite map_app in Hv. apply in_app_or in Hv.
      destruct Hv as [Hv|Hv]; [apply M1; exact Hv|]. destruct (M2 v Hv) as [Hg|[Hz _]]; [exact Hg|lia].
    - apply (subs_trans a b c U1 (f_subs _ _ _ _ F)). exists v1. exact E1.
  Qed.
  Lemma frame_trans : forall a b c k q k' q', frame a b k q -> frame b c k' q' -> wf a -> k < s_n a ->
    (k' = k /\ incl q q') \/ s_n a <= k' -> frame a c k q.
  Proof.
    intros a b c k q k' q' F G W Hka Hk. destruct (f_vars _ _ _ _ F) as (v1 & E1 & M1). destruct (f_vars _ _ _ _ G) as (v2 & E2 & M2).
    pose proof (f_n _ _ _ _ F) as HF. pose proof (f_n _ _ _ _ G) as HG. pose proof (w_0 a W) as H0.
    assert (K : k' = k \/ k < s_n b /\ k <> k' /\ k' <> 0 ) by (destruct Hk as [[Hk _]|Hk]; [left; exact Hk|right; lia]).
    constructor.
    - lia.
    - intros d Hd Hn. apply (same_trans a b c d); [apply (f_same _ _ _ _ F); assumption|]. apply (f_same _ _ _ _ G); [lia|].
      destruct Hk as [[-> _]|Hk]; [exact Hn|lia].
    - destruct K as [->|(K1 & K2 & K3)]; [rewrite (f_par _ _ _ _ G)|destruct (f_same _ _ _ _ G k K1 K2) as (_ & X & _); rewrite X]; apply (f_par _ _ _ _ F).
    - destruct K as [->|(K1 & K2 & K3)]; [rewrite (f_sub _ _ _ _ G)|destruct (f_same _ _ _ _ G k K1 K2) as (_ & _ & _ & _ & X); rewrite X]; apply (f_sub _ _ _ _ F).
    - destruct K as [->|(K1 & K2 & K3)]; [rewrite (f_name _ _ _ _ G)|destruct (f_same _ _ _ _ G k K1 K2) as (X & _); rewrite X]; apply (f_name _ _ _ _ F).
    - intros x Hx. rewrite <- (f_rew _ _ _ _ F x Hx). destruct Hk as [[-> Hq]|Hk].
      + apply (f_rew _ _ _ _ G). apply Hq. exact Hx.
      + destruct (f_same _ _ _ _ G k ltac:(lia) ltac:(lia)) as (_ & _ & X & _). rewrite X. reflexivity.
    - intros v Hv. apply (f_decl _ _ _ _ F) in Hv. destruct K as [->|(K1 & K2 & K3)]; [apply (f_decl _ _ _ _ G); exact Hv|].
      destruct (f_same _ _ _ _ G k K1 K2) as (_ & _ & _ & X & _). rewrite X. exact Hv.
    - exists (v1 ++ v2). split; [rewrite E2, E1, app_assoc; reflexivity|]. intros v Hv. rewrite map_app in Hv. apply in_app_or in Hv.
      destruct Hv as [Hv|Hv]; [apply M1; exact Hv|]. destruct (M2 v Hv) as [Hg|[Hz Hq]]; [left; exact Hg|].
      destruct Hk as [[-> Hi]|Hk]; [right; split; [exact Hz|intros X; apply Hq, Hi, X]|lia].
    - apply (subs_trans a b c (f_subs _ _ _ _ F) (f_subs _ _ _ _ G)). exists v1. exact E1.
  Qed.

  Lemma ext_scopes : forall s s' b, wf s -> ext s s' -> b < s_n s -> scopes s' b = scopes s b.
  Proof.
    intros s s' b W (N & S & _) Hb. unfold scopes. apply chain_same; [exact W|exact Hb|]. intros a Ha.
    destruct (S a ltac:(lia)) as (_ & X & _). exact X.
  Qed.
  Lemma frame_scopes : forall s s' c q b, wf s -> frame s s' c q -> b < s_n s -> scopes s' b = scopes s b.
  Proof.
    intros s s' c q b W F Hb. unfold scopes. apply chain_same; [exact W|exact Hb|]. intros a Ha.
    destruct (Nat.eq_dec a c) as [->|Hn]; [apply (f_par _ _ _ _ F)|]. destruct (f_same _ _ _ _ F a ltac:(lia) Hn) as (_ & X & _). exact X.
  Qed.

  Lemma perm_ext : forall s s' os p e r, ext s s' -> (forall x v, lookup x r = Some v -> In v (var_names s)) -> perm_ok s os p e r -> perm_ok s' os p e r.
  Proof.
    intros s s' os p e r (_ & _ & _ & U) Hr H. unfold perm_ok in *. destruct os as [i|]; destruct p as [[R Wr]|]; try exact H.
    destruct H as (a & Ha & H1 & H2). destruct (U i a Ha) as (a' & Ha' & M). exists a'. split; [exact Ha'|]. split.
    - intros x j own v He Hl. destruct (H1 x j own v He Hl) as [A B]. destruct (M v (or_introl (Hr x v Hl))) as [C D]. split; congruence.
    - intros q Hq. destruct (H2 q Hq) as [A B]. destruct (M q (or_intror Hq)) as [C D]. split; congruence.
  Qed.

  Lemma good_names : forall s b os p e x v, wf s -> good s b os p e -> lookup x (b_rew (s_blk s b)) = Some v -> In v (var_names s).
  Proof.
    intros s b os p e x v W G H. destruct (g_scope _ _ _ _ _ G x v H) as (a & Ha & Hv). apply (w_decl s W a v); [|exact Hv].
    pose proof (chain_in_le (S b) s b a W (g_lt _ _ _ _ _ G) Ha). pose proof (g_lt _ _ _ _ _ G). lia.
  Qed.

  Lemma good_ext : forall s s' b os p e, wf s -> ext s s' -> good s b os p e -> good s' b os p e.
  Proof.
    intros s s' b os p e W X G. pose proof X as (N & S & (vs & E & M) & U). pose proof (g_lt _ _ _ _ _ G) as Hb.
    destruct (S b Hb) as (S1 & S2 & S3 & S4 & S5). constructor.
    - lia.
    - rewrite S5. exact (g_sub _ _ _ _ _ G).
    - intros x. pose proof (g_env _ _ _ _ _ G x) as H. destruct (elook x e) as [[i own]|]; [|rewrite S3; exact H].
      destruct H as (v & H1 & H2). exists v. split; [rewrite S3; exact H1|]. rewrite E. apply index_app. exact H2.
    - intros x v H. rewrite S3 in H. destruct (g_scope _ _ _ _ _ G x v H) as (a & Ha & Hv). exists a.
      rewrite (ext_scopes s s' b W X Hb). split; [exact Ha|].
      pose proof (chain_in_le (Datatypes.S b) s b a W Hb Ha). destruct (S a ltac:(lia)) as (_ & _ & _ & Q & _). rewrite Q. exact Hv.
    - intros a v x Ha Hv Hx. rewrite (ext_scopes s s' b W X Hb) in Ha. pose proof (chain_in_le (Datatypes.S b) s b a W Hb Ha).
      destruct (S a ltac:(lia)) as (_ & _ & _ & Q & _). rewrite Q in Hv. rewrite S3. apply (g_all _ _ _ _ _ G a v x Ha Hv).
      rewrite E in Hx. rewrite base_app_in in Hx; [exact Hx|]. apply (w_decl s W a v); [lia|exact Hv].
    - intros x v H. rewrite S3 in H. rewrite E. apply base_app. apply (g_base _ _ _ _ _ G). exact H.
    - rewrite S3. apply (perm_ext s s' os p e); [exact X| |exact (g_perm _ _ _ _ _ G)].
      intros x v H. exact (good_names s b os p e x v W G H).
  Qed.

  Lemma good_child : forall s c b os p e, wf s -> good s c os p e -> b < s_n s -> b_par (s_blk s b) = Some c -> c < b ->
    b_rew (s_blk s b) = b_rew (s_blk s c) -> b_decl (s_blk s b) = [] -> b_sub (s_blk s b) = os -> good s b os p e.
  Proof.
    intros s c b os p e W G Hb Hp Hc Hr Hd Hs. pose proof (scopes_child s b c W Hb Hp Hc) as Hsc. constructor.
    - exact Hb.
    - exact Hs.
    - intros x. rewrite Hr. exact (g_env _ _ _ _ _ G x).
    - intros x v H. rewrite Hr in H. destruct (g_scope _ _ _ _ _ G x v H) as (a & Ha & Hv). exists a. rewrite Hsc. split; [right; exact Ha|exact Hv].
    - intros a v x Ha Hv Hx. rewrite Hsc in Ha. rewrite Hr. destruct Ha as [<-|Ha]; [rewrite Hd in Hv; contradiction|].
      exact (g_all _ _ _ _ _ G a v x Ha Hv Hx).
    - intros x v H. rewrite Hr in H. exact (g_base _ _ _ _ _ G x v H).
    - rewrite Hr. exact (g_perm _ _ _ _ _ G).
  Qed.

  (** ** Changes that matter neither to scopes nor to variables *)
  Definition eqv (s s' : st) : Prop :=
    s_n s' = s_n s /\ (forall b, same s s' b) /\ s_vars s' = s_vars s /\ s_subs s' = s_subs s.
  Lemma eqv_ext : forall s s', eqv s s' -> ext s s'.
  Proof.
    intros s s' (N & S & V & U). split; [lia|]. split; [intros b _; apply S|]. split.
    - exists []. rewrite V, app_nil_r. split; [reflexivity|]. intros v [].
    - intros i a H. exists a. rewrite U. split; [exact H|]. intros; split; reflexivity.
  Qed.
  Lemma eqv_wf : forall s s', eqv s s' -> wf s -> wf s'.
  Proof.
    intros s s' (N & S & V & U) W. destruct (S 0) as (A0 & B0 & C0 & D0 & E0). constructor.
    - rewrite N. apply w_0. exact W.
    - rewrite A0, B0. apply w_top. exact W.
    - intros b H1 H2. destruct (S b) as (A & B & _). rewrite N in H2. rewrite B. apply w_par; assumption.
    - unfold var_names. rewrite V. apply w_nodup. exact W.
    - intros v H. unfold var_names in H. rewrite V in *. rewrite D0. apply w_names; assumption.
    - intros v H. unfold var_names in H. rewrite V in *. apply w_ports with s; assumption.
    - intros b H1 H2. destruct (S b) as (A & B & _). rewrite N in H2. rewrite A. apply w_bname; assumption.
    - intros b x H1 H2. destruct (S b) as (A & B & C & _). rewrite N in H1. rewrite C in H2. apply w_keys with s b; assumption.
    - intros b v H1 H2. destruct (S b) as (A & B & C & D & _). rewrite N in H1. rewrite D in H2. unfold var_names. rewrite V.
      apply w_decl with b; assumption.
  Qed.
  Lemma eqv_trans : forall a b c, eqv a b -> eqv b c -> eqv a c.
  Proof.
    intros a b c (N & S & V & U) (N' & S' & V' & U'). split; [congruence|]. split; [|split; congruence].
    intros k. apply (same_trans a b c k); auto.
  Qed.
  Lemma eqv_refl : forall s, eqv s s.
  Proof. intros s. repeat split. Qed.
  Lemma eqv_pre : forall s v, eqv s (with_pre s v). Proof. intros; repeat split. Qed.
  Lemma eqv_rep : forall s v, eqv s (with_rep s v). Proof. intros; repeat split. Qed.
  Lemma eqv_fsm : forall s a b c, eqv s (with_fsm s a b c). Proof. intros; repeat split. Qed.
  Lemma eqv_say : forall s l, eqv s (say s l). Proof. intros; repeat split. Qed.
  Lemma eqv_gen : forall s, eqv s (next_gen s). Proof. intros; repeat split. Qed.
  Lemma eqv_known : forall s k, eqv s (with_subs s (s_subs s) k). Proof. intros; repeat split. Qed.
  Lemma eqv_may : forall s b, eqv s (set_may s b).
  Proof.
    intros s b. split; [reflexivity|]. split; [|split; reflexivity]. intros k. unfold set_may, with_blk, same, upd. cbn [s_blk].
    destruct (Nat.eqb k b) eqn:E; [|repeat split]. apply Nat.eqb_eq in E. subst k. repeat split.
  Qed.
  Lemma forward_eqv : forall f l s s', forward f l s = Some s' -> eqv s s' /\ s_log s' = s_log s /\ s_last s' = s_last s.
  Proof.
    induction f as [|x r IH]; intros l s s' H; cbn [forward] in H.
    - injection H as <-. split; [apply eqv_refl|split; reflexivity].
    - destruct (sassoc x l) as [b|]; [|discriminate]. apply IH in H. destruct H as (A & B & C).
      split; [|split; [rewrite B|rewrite C]; reflexivity]. exact (eqv_trans _ _ _ (eqv_may s b) A).
  Qed.

  (** ** New blocks *)
  Lemma add_spec : forall s name c os nb s1, wf s -> c < s_n s -> add_ctx s name c os = (nb, s1) ->
    name <> "_top" -> ((exists r, name = String "_" r) \/ In name ls) ->
    nb = s_n s /\ s_n s1 = S (s_n s) /\ wf s1 /\ ext s s1 /\ b_par (s_blk s1 nb) = Some c
    /\ b_rew (s_blk s1 nb) = b_rew (s_blk s1 c) /\ b_decl (s_blk s1 nb) = [] /\ b_sub (s_blk s1 nb) = os
    /\ s_last s1 = nb /\ s_log s1 = s_log s /\ s_vars s1 = s_vars s.
  Proof.
    intros s name c os nb s1 W Hc H Hn1 Hn2. unfold add_ctx in H. injection H as <- <-.
    match goal with |- context[wf ?t] => set (s1 := t) end.
    assert (Old : forall b, b <> s_n s -> s_blk s1 b = s_blk s b).
    { intros b Hb. unfold s1. cbn [s_blk]. unfold upd. destruct (Nat.eqb b (s_n s)) eqn:E; [apply Nat.eqb_eq in E; contradiction|reflexivity]. }
    assert (New : s_blk s1 (s_n s) = {| b_name := name; b_par := Some c; b_rew := b_rew (s_blk s c); b_decl := []; b_sub := os; b_may := false |}).
    { unfold s1. cbn [s_blk]. unfold upd. rewrite Nat.eqb_refl. reflexivity. }
    pose proof (w_0 s W) as H0.
    assert (V : s_vars s1 = s_vars s) by reflexivity.
    assert (X : ext s s1).
    { split; [unfold s1; cbn [s_n]; lia|]. split; [intros b Hb; unfold same; rewrite (Old b) by lia; repeat split|]. split.
      - exists []. rewrite V, app_nil_r. split; [reflexivity|intros v []].
      - intros i a Ha. exists a. split; [exact Ha|]. intros; split; reflexivity. }
    split; [reflexivity|]. split; [reflexivity|]. split.
    { constructor.
      - unfold s1; cbn [s_n]; lia.
      - rewrite (Old 0) by lia. apply w_top. exact W.
      - intros b H1 H2. unfold s1 in H2; cbn [s_n] in H2. destruct (Nat.eq_dec b (s_n s)) as [->|Hb].
        + rewrite New. cbn [b_par]. exists c. split; [reflexivity|exact Hc].
        + rewrite (Old b Hb). apply w_par; [exact W|exact H1|lia].
      - exact (w_nodup s W).
      - intros v Hv. rewrite (Old 0) by lia. rewrite V. exact (w_names s W v Hv).
      - intros v Hv. apply (w_ports s W v Hv).
      - intros b H1 H2. unfold s1 in H2; cbn [s_n] in H2. destruct (Nat.eq_dec b (s_n s)) as [->|Hb].
        + rewrite New. cbn [b_name]. split; assumption.
        + rewrite (Old b Hb). apply w_bname; [exact W|exact H1|lia].
      - intros b x H1 H2. unfold s1 in H1; cbn [s_n] in H1. destruct (Nat.eq_dec b (s_n s)) as [->|Hb].
        + rewrite New in H2. cbn [b_rew] in H2. apply (w_keys s W c x Hc H2).
        + rewrite (Old b Hb) in H2. apply (w_keys s W b x); [lia|exact H2].
      - intros b v H1 H2. unfold s1 in H1; cbn [s_n] in H1. destruct (Nat.eq_dec b (s_n s)) as [->|Hb].
        + rewrite New in H2. contradiction.
        + rewrite (Old b Hb) in H2. unfold var_names. rewrite V. apply (w_decl s W b v); [lia|exact H2]. }
    split; [exact X|]. rewrite New. rewrite (Old c) by lia. cbn [b_par b_rew b_decl b_sub]. repeat split.
  Qed.

  Lemma new_name : forall pre s post, pre = "" \/ pre = "__while" ->
    (pre ++ block_name s ++ post)%string <> "_top" /\ exists r, (pre ++ block_name s ++ post)%string = String "_" r.
  Proof.
    intros pre s post [->| ->]; unfold block_name; cbn [String.append]; (split; [discriminate|eexists; reflexivity]).
  Qed.

  Lemma new_spec : forall s pre post c nb s1, wf s -> c < s_n s -> pre = "" \/ pre = "__while" -> new s pre post c = (nb, s1) ->
    nb = s_n s /\ s_n s1 = S (s_n s) /\ wf s1 /\ ext s s1 /\ b_par (s_blk s1 nb) = Some c
    /\ b_rew (s_blk s1 nb) = b_rew (s_blk s1 c) /\ b_decl (s_blk s1 nb) = [] /\ b_sub (s_blk s1 nb) = b_sub (s_blk s c)
    /\ s_last s1 = nb /\ s_log s1 = s_log s /\ s_vars s1 = s_vars s.
  Proof.
    intros s pre post c nb s1 W Hc Hp H. unfold new, add in H. destruct (new_name pre s post Hp) as [N1 N2].
    destruct (add_spec (next_gen s) _ c _ nb s1 (eqv_wf _ _ (eqv_gen s) W) Hc H N1 (or_introl N2)) as (A & B & C & D & E).
    split; [exact A|]. split; [exact B|]. split; [exact C|]. split; [exact (ext_trans _ _ _ (eqv_ext _ _ (eqv_gen s)) D)|]. exact E.
  Qed.

  Lemma new_good : forall s pre post c nb s1 os p e, wf s -> pre = "" \/ pre = "__while" -> new s pre post c = (nb, s1) -> good s c os p e ->
    good s1 nb os p e.
  Proof.
    intros s pre post c nb s1 os p e W Hp H G. pose proof (g_lt _ _ _ _ _ G) as Hc.
    destruct (new_spec s pre post c nb s1 W Hc Hp H) as (A & B & C & D & E & F & K & L & _).
    apply (good_child s1 c nb os p e C); [exact (good_ext s s1 c os p e W D G)|lia|exact E|lia|exact F|exact K|].
    rewrite L. exact (g_sub _ _ _ _ _ G).
  Qed.
End Inv.
