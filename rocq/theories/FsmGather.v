(** What the gathering builds follows the layout. *)
From Coq Require Import List Bool Arith ZArith Lia.
Import ListNotations.
From Verif Require Import FsmModel FsmEmit FsmLayout.

Lemma spair {A B} (a c : A) (b d : B) : Some (a, b) = Some (c, d) -> a = c /\ b = d.
Proof. intros [= -> ->]. auto. Qed.

Definition addb (s : gst) : gst := snd (add_block s).

(** * Reading the result of the elementary steps *)
Lemma n_addb s : g_next (addb s) = S (g_next s). Proof. reflexivity. Qed.
Lemma n_end s b e : g_next (st_end s b e) = g_next s. Proof. reflexivity. Qed.
Lemma n_state s b e : g_next (st_state s b e) = g_next s. Proof. reflexivity. Qed.
Lemma n_upd s g : g_next (upd_blk s g) = g_next s. Proof. reflexivity. Qed.
Lemma n_last s b : g_next (st_last s b) = g_next s. Proof. reflexivity. Qed.
Lemma b_addb s x : x <> g_next s -> g_blk (addb s) x = g_blk s x.
Proof. intros. cbn. now rewrite gset_other. Qed.
Lemma b_addb_new s : g_blk (addb s) (g_next s) = blk0.
Proof. cbn. now rewrite gset_same. Qed.
Lemma e_end s b e x : x <> b -> g_blk (st_end s b e) x = g_blk s x.
Proof. intros. cbn. gs. now rewrite gset_other. Qed.
Lemma e_end_same s b e : b_end (g_blk (st_end s b e) b) = e.
Proof. cbn. gs. now rewrite gset_same. Qed.
Lemma i_end s b e x : b_ins (g_blk (st_end s b e) x) = b_ins (g_blk s x).
Proof. cbn. gs. destruct (Nat.eq_dec x b); [subst; now rewrite gset_same|now rewrite gset_other]. Qed.
Lemma s_end s b e x : b_state (g_blk (st_end s b e) x) = b_state (g_blk s x).
Proof. cbn. gs. destruct (Nat.eq_dec x b); [subst; now rewrite gset_same|now rewrite gset_other]. Qed.
Lemma k_end s b e x : b_noskip (g_blk (st_end s b e) x) = b_noskip (g_blk s x).
Proof. cbn. gs. destruct (Nat.eq_dec x b); [subst; now rewrite gset_same|now rewrite gset_other]. Qed.
Lemma e_state s b v x : b_end (g_blk (st_state s b v) x) = b_end (g_blk s x).
Proof. cbn. gs. destruct (Nat.eq_dec x b); [subst; now rewrite gset_same|now rewrite gset_other]. Qed.
Lemma i_state s b v x : b_ins (g_blk (st_state s b v) x) = b_ins (g_blk s x).
Proof. cbn. gs. destruct (Nat.eq_dec x b); [subst; now rewrite gset_same|now rewrite gset_other]. Qed.
Lemma k_state s b v x : b_noskip (g_blk (st_state s b v) x) = b_noskip (g_blk s x).
Proof. cbn. gs. destruct (Nat.eq_dec x b); [subst; now rewrite gset_same|now rewrite gset_other]. Qed.
Lemma s_state s b v x : x <> b -> b_state (g_blk (st_state s b v) x) = b_state (g_blk s x).
Proof. intros. cbn. gs. now rewrite gset_other. Qed.
Lemma s_state_same s b v : b_state (g_blk (st_state s b v) b) = v.
Proof. cbn. gs. now rewrite gset_same. Qed.
Lemma b_last s b : g_blk (st_last s b) = g_blk s. Proof. reflexivity. Qed.

Lemma assoc_in n l x : assoc n l = Some x -> In (n, x) l.
Proof. induction l as [|[k v] l IH]; cbn; [discriminate|]. destruct (Nat.eqb_spec k n); [intros [= ->]; subst; now left|intros H; right; auto]. Qed.

Lemma prom_addb s x : prom (g_blk (addb s)) x -> prom (g_blk s) x.
Proof. intros H. eapply prom_gset; [exact H|]. cbn. intros; discriminate. Qed.
Lemma prom_state s b v x : prom (g_blk (st_state s b v)) x -> prom (g_blk s) x.
Proof. intros H. eapply prom_gset; [exact H|]. cbn. reflexivity. Qed.
Lemma prom_end_or s b e x : prom (g_blk (st_end s b e)) x -> prom (g_blk s) x \/ exists t ib fi it eb fe et, e = EIf t ib fi it eb fe et x.
Proof.
  intros [y [t [ib [fi [it [eb [fe [et [H F]]]]]]]]]. destruct (Nat.eq_dec y b).
  - subst. rewrite e_end_same in H. right. exists t, ib, fi, it, eb, fe, et. exact H.
  - rewrite e_end in H by assumption. left. exists y, t, ib, fi, it, eb, fe, et. auto.
Qed.
Lemma prom_end s b e x : prom (g_blk (st_end s b e)) x -> (forall t ib fi it eb fe et a, e <> EIf t ib fi it eb fe et a) -> prom (g_blk s) x.
Proof. intros H N. destruct (prom_end_or _ _ _ _ H) as [?|[t [ib [fi [it [eb [fe [et E]]]]]]]]; [assumption|]. now apply N in E. Qed.

(** ** Blocks left alone *)
Lemma keep_refl c s : Keep c s s.
Proof. intros b _ _. auto. Qed.
Lemma keep_end c s s1 b e : Keep c s s1 -> b = c \/ g_next s <= b -> Keep c s (st_end s1 b e).
Proof. intros K H x L N. rewrite i_end, k_end, e_end by (destruct H; lia). now apply K. Qed.
Lemma keep_state c s s1 b v : Keep c s s1 -> Keep c s (st_state s1 b v).
Proof. intros K x L N. rewrite i_state, k_state, e_state. now apply K. Qed.
Lemma keep_addb c s s1 : Keep c s s1 -> g_next s <= g_next s1 -> Keep c s (addb s1).
Proof. apply keep_add. Qed.
Lemma keep_trans c c2 s s1 s2 : Keep c s s1 -> Keep c2 s1 s2 -> g_next s <= g_next s1 -> c2 = c \/ g_next s <= c2 -> Keep c s s2.
Proof.
  intros K K2 L H x Lx N. destruct (K x Lx N) as [A1 [A2 A3]]. destruct (K2 x) as [B1 [B2 B3]]; [lia|destruct H; lia|].
  split; [congruence|split; congruence].
Qed.

Section Gather.
  Variable fuel : nat.

  Definition gblock (brk : option nat) (l : list stmt) (cur : nat) (s : gst) : option (nat * gst) :=
    do (a, s3) <- gather_list fuel brk l (g_next s) (st_next (addb s) cur (g_next s));
    Some (g_next s3, st_next (addb s3) a (g_next s3)).

  Definition gcases (brk : option nat) (af : nat) := fix gcases (cs : list (option Z * list stmt)) (s : gst) : option (list (option Z * nat) * gst) :=
    match cs with
    | [] => Some ([], s)
    | (v, l) :: r =>
        do (ca, s2) <- gblock brk l (g_next s) (addb s);
        do (bs, s3) <- gcases r (st_next s2 ca af);
        Some ((v, g_next s) :: bs, s3)
    end.

  Definition gflags (g : graph) := fix gflags (bs : list (option Z * nat)) : option bool :=
    match bs with
    | [] => Some true
    | (_, b) :: r => do f1 <- stateless fuel g [] [b]; do f2 <- gflags r; Some (f1 && f2)
    end.

  Lemma gather_list_cons brk x r cur s : gather_list fuel brk (x :: r) cur s = do (c, s') <- gather fuel brk x cur s; gather_list fuel brk r c s'.
  Proof. reflexivity. Qed.
  Lemma gather_block brk l cur s : gather fuel brk (SBlock l) cur s = gblock brk l cur s.
  Proof. reflexivity. Qed.
  Lemma gather_if brk e l cur s : gather fuel brk (SIf e l) cur s =
      do (ia, s3) <- gblock brk l (g_next s) (addb (addb s));
      do fl <- stateless fuel (g_blk (st_next (st_next (addb s3) ia (g_next s3)) (S (g_next s)) (g_next s3))) [] [g_next s];
      Some (g_next s3, st_end (st_next (st_next (addb s3) ia (g_next s3)) (S (g_next s)) (g_next s3)) cur
         (EIf e (g_next s) fl ia (S (g_next s)) true (S (g_next s)) (g_next s3))).
  Proof. reflexivity. Qed.
  Lemma gather_ifelse brk e l1 l2 cur s : gather fuel brk (SIfElse e l1 l2) cur s =
      do (ia, s3) <- gblock brk l1 (g_next s) (addb (addb s));
      do (ea, s4) <- gblock brk l2 (S (g_next s)) s3;
      do fi <- stateless fuel (g_blk (st_next (st_next (addb s4) ia (g_next s4)) ea (g_next s4))) [] [g_next s];
      do fe <- stateless fuel (g_blk (st_next (st_next (addb s4) ia (g_next s4)) ea (g_next s4))) [] [S (g_next s)];
      Some (g_next s4, st_end (st_next (st_next (addb s4) ia (g_next s4)) ea (g_next s4)) cur
         (EIf e (g_next s) fi ia (S (g_next s)) fe ea (g_next s4))).
  Proof. reflexivity. Qed.
  Lemma gather_switch brk e cs cur s : gather fuel brk (SSwitch e cs) cur s =
      do (bs, s2) <- gcases brk (g_next s) cs (addb s);
      do fl <- gflags (g_blk (st_end s2 cur (ESwitch e bs (g_next s)))) bs;
      Some (g_next s, st_state (st_end s2 cur (ESwitch e bs (g_next s))) (g_next s) (negb fl)).
  Proof. reflexivity. Qed.
  Lemma gather_while brk e l cur s : gather fuel brk (SWhile e l) cur s =
      do (il, s5) <- gblock (Some (S (S (g_next s)))) l (S (g_next s)) (addb (addb (st_next (addb s) cur (g_next s))));
      Some (S (S (g_next s)), st_state (st_end (st_next (st_last s5 (S (S (g_next s)))) il (g_next s)) (g_next s)
          (EWhile e (S (g_next s)) (S (S (g_next s))))) (g_next s) true).
  Proof. reflexivity. Qed.
  Lemma gather_step brk cur s : gather fuel brk SStep cur s =
      Some (g_next s, st_next (upd_blk (st_state (addb s) (g_next s) true) (set_noskip (g_blk (st_state (addb s) (g_next s) true)) (g_next s))) cur (g_next s)).
  Proof. reflexivity. Qed.
  Lemma gather_join brk d rb cur s : gather fuel brk (SJoin d rb) cur s =
      Some (S (g_next s), upd_blk (st_end (st_state (addb (st_next (st_state (addb s) (g_next s) true) cur (g_next s))) (S (g_next s)) true)
              (g_next s) (EWait d (g_next s) (S (g_next s))))
          (add_ins (g_blk (st_end (st_state (addb (st_next (st_state (addb s) (g_next s) true) cur (g_next s))) (S (g_next s)) true)
              (g_next s) (EWait d (g_next s) (S (g_next s))))) (S (g_next s)) (map (fun r => IAssign (fst r) (snd r)) rb))).
  Proof. reflexivity. Qed.

  (** * Specification *)
  Definition brkE (brk : option nat) (x : nat) : Prop := brk = Some x.
  Definition noE (x : nat) : Prop := False.

  Record Pre (brk : option nat) (cur : nat) (s : gst) : Prop := {
    q_inv : Inv s;
    q_inj : forall n m b, In (n, b) (g_lbl s) -> In (m, b) (g_lbl s) -> n = m;
    q_disj : forall x, islbl s x -> ~ prom (g_blk s) x;
    q_fnd : NoDup (map snd (g_fwd s));
    q_unres : forall b, b_end (g_blk s b) = ENext None -> exists n, In (n, b) (g_fwd s);
    q_cur : cur < g_next s;
    q_open : b_end (g_blk s cur) = ENone;
    q_brk : forall t, brk = Some t -> t < g_next s /\ ~ islbl s t
  }.

  (** A block never to become a state. *)
  Definition qf (s : gst) (x : nat) : Prop := b_state (g_blk s x) = false /\ ~ islbl s x /\ ~ prom (g_blk s) x.

  Record Post (brk : option nat) (hb : bool) (gt : list nat) (cur : nat) (s : gst) (c' : nat) (s' : gst) : Prop := {
    p_fut : Fut (brkE brk) s s';
    p_keep : Keep cur s s';
    p_inv : Inv s';
    p_inj : forall n m b, In (n, b) (g_lbl s') -> In (m, b) (g_lbl s') -> n = m;
    p_disj : forall x, islbl s' x -> ~ prom (g_blk s') x;
    p_fnd : NoDup (map snd (g_fwd s'));
    p_unres : forall b, b_end (g_blk s' b) = ENext None -> exists n, In (n, b) (g_fwd s');
    p_cur : c' < g_next s';
    p_open : b_end (g_blk s' c') = ENone;
    p_where : c' = cur \/ g_next s <= c';
    p_mark : forall b, b < g_next s -> b_state (g_blk s' b) = true -> b_state (g_blk s b) = true \/ (brk = Some b /\ hb = true) \/
       (exists n, In (n, b) (g_lbl s) /\ In n gt);
    p_brk : forall t, brk = Some t -> hb = true -> b_state (g_blk s' t) = true;
    p_newl : forall n b, In (n, b) (g_lbl s') -> g_next s <= b -> b_state (g_blk s' b) = true -> In n gt;
    p_fwd : forall n b, In (n, b) (g_fwd s') -> In (n, b) (g_fwd s) \/ In n gt;
    p_last : g_last s' = c' \/ (c' = cur /\ g_last s' = g_last s) \/ (g_next s <= g_last s' < g_next s' /\ qf s' (g_last s'))
  }.

  Definition LbOf (s : gst) (n x : nat) : Prop := assoc n (g_lbl s) = Some x.

  (** The labels the program jumps to. *)
  Variable T : list nat.
  Definition stmt_ok (st : stmt) : Prop := forall brk cur s c' s', gather fuel brk st cur s = Some (c', s') -> Pre brk cur s ->
    nojump T st = true -> incl (gotos st) T ->
    Post brk (hasbrk st) (gotos st) cur s c' s' /\
    forall E sF, Fut E s' sF -> (forall x, E x -> x < g_next s) ->
      tr (g_blk sF) (LbOf sF) brk st (g_next s) (g_next s') cur (length (b_ins (g_blk s cur))) c' (length (b_ins (g_blk s' c'))).

  Definition list_ok (l : list stmt) : Prop := forall brk cur s c' s', gather_list fuel brk l cur s = Some (c', s') -> Pre brk cur s ->
    nojumps T l = true -> incl (gotoss l) T ->
    Post brk (hasbrks l) (gotoss l) cur s c' s' /\
    forall E sF, Fut E s' sF -> (forall x, E x -> x < g_next s) ->
      trl (g_blk sF) (LbOf sF) brk l (g_next s) (g_next s') cur (length (b_ins (g_blk s cur))) c' (length (b_ins (g_blk s' c'))).

  Definition block_ok (l : list stmt) : Prop := forall brk cur s c' s', gblock brk l cur s = Some (c', s') -> Pre brk cur s ->
    nojumps T l = true -> incl (gotoss l) T ->
    Post brk (hasbrks l) (gotoss l) cur s c' s' /\ b_ins (g_blk s' c') = [] /\ g_next s <= c' /\ g_last s' = c' /\ qf s' c' /\
    forall E sF, Fut E s' sF -> (forall x, E x -> x < g_next s) ->
      trb (g_blk sF) (LbOf sF) brk l (g_next s) (g_next s') cur (length (b_ins (g_blk s cur))) c'.

  (** Composition. *)
  Lemma post_pre brk hb gt cur s c' s' : Pre brk cur s -> Post brk hb gt cur s c' s' -> Pre brk c' s'.
  Proof.
    intros P Q. constructor; [exact (p_inv _ _ _ _ _ _ _ Q)|exact (p_inj _ _ _ _ _ _ _ Q)|exact (p_disj _ _ _ _ _ _ _ Q)|exact (p_fnd _ _ _ _ _ _ _ Q)|exact (p_unres _ _ _ _ _ _ _ Q)|
      exact (p_cur _ _ _ _ _ _ _ Q)|exact (p_open _ _ _ _ _ _ _ Q)|].
    intros t H. destruct (q_brk _ _ _ P t H) as [L N]. pose proof (f_next _ _ _ (p_fut _ _ _ _ _ _ _ Q)). split; [lia|].
    intros [n I]. apply N. exists n. now apply (f_lbl _ _ _ (p_fut _ _ _ _ _ _ _ Q)).
  Qed.

  Lemma post_refl brk cur s : Pre brk cur s -> Post brk false [] cur s cur s.
  Proof.
    intros P. constructor.
    - apply fut_refl. exact (i_lbl s (q_inv _ _ _ P)).
    - apply keep_refl.
    - exact (q_inv _ _ _ P).
    - exact (q_inj _ _ _ P).
    - exact (q_disj _ _ _ P).
    - exact (q_fnd _ _ _ P).
    - exact (q_unres _ _ _ P).
    - exact (q_cur _ _ _ P).
    - exact (q_open _ _ _ P).
    - now left.
    - intros b _ S. now left.
    - discriminate.
    - intros n b I L S. pose proof (i_lbl s (q_inv _ _ _ P) n b I). lia.
    - intros n b I. now left.
    - right; left. split; reflexivity.
  Qed.

  Lemma qf_fut E s s' x : Fut E s s' -> x < g_next s -> ~ E x -> qf s x -> qf s' x.
  Proof.
    intros F L NE [A [B C]]. split; [|split].
    - destruct (b_state (g_blk s' x)) eqn:S; [|reflexivity].
      destruct (f_new _ _ _ F x L S) as [H|[H|[H|H]]]; [congruence|contradiction|contradiction|contradiction].
    - intros [n I]. apply B. exists n. now apply (f_lbl _ _ _ F).
    - intros P. apply C. now apply (f_prom _ _ _ F).
  Qed.

  Lemma qf_new s : Inv s -> qf (addb s) (g_next s).
  Proof.
    intros I. split; [|split].
    - now rewrite b_addb_new.
    - intros [n H]. pose proof (i_lbl s I n _ H). lia.
    - intros H. apply prom_gset in H; [|cbn; intros; discriminate]. pose proof (i_prom s I _ H). lia.
  Qed.

  Lemma post_trans brk h1 g1 h2 g2 cur s c1 s1 c2 s2 : Post brk h1 g1 cur s c1 s1 -> Post brk h2 g2 c1 s1 c2 s2 ->
    (forall t, brk = Some t -> t < g_next s) ->
    Post brk (h1 || h2) (g1 ++ g2) cur s c2 s2.
  Proof.
    intros A B HB. pose proof (f_next _ _ _ (p_fut _ _ _ _ _ _ _ A)) as LA. pose proof (f_next _ _ _ (p_fut _ _ _ _ _ _ _ B)) as LB.
    constructor.
    - eapply fut_trans1; [exact (p_fut _ _ _ _ _ _ _ A)|exact (p_fut _ _ _ _ _ _ _ B)].
    - eapply keep_trans; [exact (p_keep _ _ _ _ _ _ _ A)|exact (p_keep _ _ _ _ _ _ _ B)|exact LA|exact (p_where _ _ _ _ _ _ _ A)].
    - exact (p_inv _ _ _ _ _ _ _ B).
    - exact (p_inj _ _ _ _ _ _ _ B).
    - exact (p_disj _ _ _ _ _ _ _ B).
    - exact (p_fnd _ _ _ _ _ _ _ B).
    - exact (p_unres _ _ _ _ _ _ _ B).
    - exact (p_cur _ _ _ _ _ _ _ B).
    - exact (p_open _ _ _ _ _ _ _ B).
    - destruct (p_where _ _ _ _ _ _ _ A) as [ <-|?]; destruct (p_where _ _ _ _ _ _ _ B) as [ ->|?]; [now left|right; lia|now right|right; lia].
    - intros b L S. destruct (p_mark _ _ _ _ _ _ _ B b ltac:(lia) S) as [H|[[H1 H2]|[n [H1 H2]]]].
      + destruct (p_mark _ _ _ _ _ _ _ A b L H) as [?|[[H1 H2]|[n [H1 H2]]]].
        * now left.
        * right; left. split; [exact H1|]. rewrite H2. reflexivity.
        * right; right. exists n. split; [exact H1|apply in_app_iff; now left].
      + right; left. split; [exact H1|]. rewrite H2. apply orb_true_r.
      + right; right. exists n. split; [|apply in_app_iff; now right]. now apply (f_lbl _ _ _ (p_fut _ _ _ _ _ _ _ A)).
    - intros t Ht H. apply orb_true_iff in H. destruct H as [H|H].
      + apply (f_state _ _ _ (p_fut _ _ _ _ _ _ _ B)); [specialize (HB t Ht); lia|]. now apply (p_brk _ _ _ _ _ _ _ A).
      + now apply (p_brk _ _ _ _ _ _ _ B).
    - intros n b I L S. apply in_app_iff. destruct (le_lt_dec (g_next s1) b).
      + right. eapply (p_newl _ _ _ _ _ _ _ B); eassumption.
      + pose proof (f_lbl _ _ _ (p_fut _ _ _ _ _ _ _ B) n b I ltac:(lia)) as I1.
        destruct (p_mark _ _ _ _ _ _ _ B b ltac:(lia) S) as [H|[[H1 H2]|[m [H1 H2]]]].
        * left. eapply (p_newl _ _ _ _ _ _ _ A); eassumption.
        * exfalso. specialize (HB b H1). lia.
        * right. now rewrite (p_inj _ _ _ _ _ _ _ A n m b I1 H1).
    - intros n b I. destruct (p_fwd _ _ _ _ _ _ _ B n b I) as [H|H]; [|right; apply in_app_iff; now right].
      destruct (p_fwd _ _ _ _ _ _ _ A n b H) as [?|?]; [now left|right; apply in_app_iff; now left].
    - destruct (p_last _ _ _ _ _ _ _ B) as [H|[[H1 H2]|[H1 H2]]].
      + now left.
      + destruct (p_last _ _ _ _ _ _ _ A) as [K|[[K1 K2]|[K1 K2]]].
        * left. congruence.
        * right; left. split; congruence.
        * right; right. rewrite H2. split; [lia|]. eapply qf_fut; [exact (p_fut _ _ _ _ _ _ _ B)|lia| |exact K2].
          intros H. specialize (HB _ H). lia.
      + right; right. split; [lia|exact H2].
  Qed.

  (** A sequence, from its elements. *)
  Lemma list_from l : Forall stmt_ok l -> list_ok l.
  Proof.
    intros F. induction F as [|x r Hx Hr IH]; intros brk cur s c' s' H P NJ GT.
    - cbn in H. apply spair in H; destruct H as [ <- <-]. split; [now apply post_refl|]. intros. constructor.
    - rewrite gather_list_cons in H. destruct (gather fuel brk x cur s) as [[c1 s1]|] eqn:G; [|discriminate]. cbn [obind] in H.
      cbn [nojumps forallb] in NJ. apply andb_true_iff in NJ. destruct NJ as [NJ1 NJ2]. cbn [gotoss flat_map] in GT. apply incl_app_inv in GT. destruct GT as [GT1 GT2].
      destruct (Hx _ _ _ _ _ G P NJ1 GT1) as [A TA]. pose proof (post_pre _ _ _ _ _ _ _ P A) as P1.
      destruct (IH _ _ _ _ _ H P1 NJ2 GT2) as [B TB]. split.
      + cbn [hasbrks gotoss existsb flat_map]. eapply post_trans; [exact A|exact B|]. intros t Ht. now apply (q_brk _ _ _ P).
      + intros E sF FF HE. pose proof (f_next _ _ _ (p_fut _ _ _ _ _ _ _ A)) as LA. econstructor.
        * apply (TA (fun x => brkE brk x \/ E x) sF); [eapply fut_trans; [exact (p_fut _ _ _ _ _ _ _ B)|exact FF]|].
          intros y [Hy|Hy]; [now apply (q_brk _ _ _ P)|now apply HE].
        * apply (TB E sF FF). intros y Hy. specialize (HE y Hy). lia.
  Qed.

  Lemma block_from l : list_ok l -> block_ok l.
  Proof.
    intros LO brk cur s c' s' H P NJ GT. unfold gblock in H.
    destruct (gather_list fuel brk l (g_next s) (st_next (addb s) cur (g_next s))) as [[a s3]|] eqn:G; [|discriminate].
    cbn [obind] in H. apply spair in H; destruct H as [ <- <-]. unfold st_next in *. destruct P as [Pi Pj Px Pd Pu Pc Po Pb].
    assert (N0 : g_next s <> cur) by lia.
    assert (I1 : Inv (st_end (addb s) cur (ENext (Some (g_next s))))).
    { apply inv_end; [now apply inv_add|rewrite n_addb; lia|rewrite b_addb by lia; exact Po|discriminate]. }
    assert (F1 : forall E, Fut E s (st_end (addb s) cur (ENext (Some (g_next s))))).
    { intros E. apply fut_end; [apply fut_add; [exact Pi|apply fut_refl; exact (i_lbl s Pi)]|rewrite b_addb by lia; exact Po|discriminate|discriminate]. }
    assert (F1' : forall E, Fut E (addb s) (st_end (addb s) cur (ENext (Some (g_next s))))).
    { intros E. apply fut_end; [apply fut_refl; exact (i_lbl _ (inv_add s Pi))|rewrite b_addb by lia; exact Po|discriminate|discriminate]. }
    set (s2 := st_end (addb s) cur (ENext (Some (g_next s)))) in *.
    assert (N2 : g_next s2 = S (g_next s)) by reflexivity.
    assert (P2 : Pre brk (g_next s) s2).
    { constructor; [exact I1|exact Pj| |exact Pd| |lia|unfold s2; rewrite e_end by lia; rewrite b_addb_new; reflexivity|].
      - intros x Lx Hx. apply (Px x Lx). unfold s2 in Hx. apply prom_end in Hx; [|discriminate]. now apply prom_addb in Hx.
      - intros b Hb. destruct (Nat.eq_dec b cur) as [ ->|Nb]; [unfold s2 in Hb; rewrite e_end_same in Hb; discriminate|].
        unfold s2 in Hb. rewrite e_end in Hb by assumption. destruct (Nat.eq_dec b (g_next s)) as [ ->|Nn]; [rewrite b_addb_new in Hb; discriminate|].
        rewrite b_addb in Hb by assumption. now apply Pu.
      - intros t Ht. destruct (Pb t Ht). split; [lia|assumption]. }
    destruct (LO _ _ _ _ _ G P2 NJ GT) as [A TA]. pose proof (p_fut _ _ _ _ _ _ _ A) as FA. pose proof (f_next _ _ _ FA) as LA.
    pose proof (p_cur _ _ _ _ _ _ _ A) as CA. pose proof (p_open _ _ _ _ _ _ _ A) as OA. pose proof (p_inv _ _ _ _ _ _ _ A) as IA.
    pose proof (p_where _ _ _ _ _ _ _ A) as WA.
    assert (F4 : forall E s0, Fut E s0 s3 -> Fut E s0 (st_end (addb s3) a (ENext (Some (g_next s3))))).
    { intros E s0 F. apply fut_end; [apply fut_add; assumption|rewrite b_addb by lia; exact OA|discriminate|discriminate]. }
    assert (F5 : forall E, Fut E (addb s3) (st_end (addb s3) a (ENext (Some (g_next s3))))).
    { intros E. apply fut_end; [apply fut_refl; exact (i_lbl _ (inv_add s3 IA))|rewrite b_addb by lia; exact OA|discriminate|discriminate]. }
    assert (I4 : Inv (st_end (addb s3) a (ENext (Some (g_next s3))))).
    { apply inv_end; [now apply inv_add|rewrite n_addb; lia|rewrite b_addb by lia; exact OA|discriminate]. }
    set (s4 := st_end (addb s3) a (ENext (Some (g_next s3)))) in *.
    assert (N4 : g_next s4 = S (g_next s3)) by reflexivity.
    assert (Q : qf s4 (g_next s3)).
    { eapply qf_fut; [apply (F5 noE)|rewrite n_addb; lia|exact (fun x => x)|now apply qf_new]. }
    split; [|split; [|split; [|split; [|split]]]].
    - constructor.
      + apply F4. eapply fut_trans1; [apply F1|exact FA].
      + assert (K : Keep cur s s3).
        { eapply keep_trans; [|exact (p_keep _ _ _ _ _ _ _ A)|lia|right; lia].
          apply keep_end; [apply keep_addb; [apply keep_refl|lia]|now left]. }
        apply keep_end; [apply keep_addb; [exact K|lia]|right; lia].
      + exact I4.
      + exact (p_inj _ _ _ _ _ _ _ A).
      + intros x Lx Hx. apply (p_disj _ _ _ _ _ _ _ A x Lx). unfold s4 in Hx. apply prom_end in Hx; [|discriminate]. now apply prom_addb in Hx.
      + exact (p_fnd _ _ _ _ _ _ _ A).
      + intros b Hb. destruct (Nat.eq_dec b a) as [ ->|Nb]; [unfold s4 in Hb; rewrite e_end_same in Hb; discriminate|].
        unfold s4 in Hb. rewrite e_end in Hb by assumption. destruct (Nat.eq_dec b (g_next s3)) as [ ->|Nn]; [rewrite b_addb_new in Hb; discriminate|].
        rewrite b_addb in Hb by assumption. exact (p_unres _ _ _ _ _ _ _ A b Hb).
      + lia.
      + unfold s4. rewrite e_end by lia. rewrite b_addb_new. reflexivity.
      + right. lia.
      + intros b Lb S. unfold s4 in S. rewrite s_end, b_addb in S by lia.
        destruct (p_mark _ _ _ _ _ _ _ A b ltac:(lia) S) as [H|[H|H]]; [left|now right; left|now right; right].
        unfold s2 in H. rewrite s_end, b_addb in H by lia. exact H.
      + intros t Ht Hb. unfold s4. destruct (Pb t Ht). rewrite s_end, b_addb by lia. now apply (p_brk _ _ _ _ _ _ _ A).
      + intros n b I Lb S. assert (L3 : b < g_next s3) by (apply (i_lbl s3 IA n b I)).
        unfold s4 in S. rewrite s_end, b_addb in S by lia.
        assert (b <> g_next s). { intros ->. pose proof (f_lbl _ _ _ FA n _ I ltac:(lia)) as J. pose proof (i_lbl s Pi n _ J). lia. }
        apply (p_newl _ _ _ _ _ _ _ A n b I); [lia|exact S].
      + exact (p_fwd _ _ _ _ _ _ _ A).
      + now left.
    - unfold s4. rewrite i_end, b_addb_new. reflexivity.
    - lia.
    - reflexivity.
    - exact Q.
    - intros E sF FF HE. assert (HB : forall x, brkE brk x -> x < g_next s) by (intros x Hx; now apply Pb).
      assert (FAF : Fut (fun x => brkE brk x \/ E x) s2 sF).
      { eapply fut_trans; [exact FA|]. eapply fut_trans1; [apply (F4 E s3); apply fut_refl; exact (i_lbl s3 IA)|exact FF]. }
      destruct (fut_end_eq _ s2 sF cur FAF) as [X1 X2]; [lia|unfold s2; rewrite e_end_same; discriminate|unfold s2; rewrite e_end_same; discriminate|].
      destruct (fut_end_eq _ s4 sF a FF) as [Y1 Y2]; [lia|unfold s4; rewrite e_end_same; discriminate|unfold s4; rewrite e_end_same; discriminate|].
      unfold s2 in X1, X2. rewrite e_end_same in X1. rewrite i_end, b_addb in X2 by lia.
      unfold s4 in Y1, Y2. rewrite e_end_same in Y1. rewrite i_end, b_addb in Y2 by lia.
      rewrite N4. econstructor.
      + unfold full. now rewrite X2.
      + exact X1.
      + apply (fut_fresh (fun x => brkE brk x \/ E x)); [exact Pi| |intros [H|H]; [specialize (HB _ H)|specialize (HE _ H)]; lia].
        eapply fut_trans1; [apply F1'|exact FAF].
      + rewrite N2 in TA. assert (B0 : b_ins (g_blk s2 (g_next s)) = []) by (unfold s2; rewrite i_end, b_addb_new; reflexivity).
        rewrite B0 in TA. cbn in TA. apply (TA E sF).
        * eapply fut_trans1; [apply (F4 E s3); apply fut_refl; exact (i_lbl s3 IA)|exact FF].
        * intros x Hx. specialize (HE x Hx). lia.
      + unfold full. now rewrite Y2.
      + exact Y1.
      + apply (fut_fresh E); [exact IA| |intros H; specialize (HE _ H); lia].
        eapply fut_trans1; [apply F5|exact FF].
  Qed.

  (** ** Steps of the gathering, independently of the current block *)
  Record Mid (P : nat -> Prop) (brk : option nat) (hb : bool) (gt : list nat) (s s' : gst) : Prop := {
    m_fut : Fut (brkE brk) s s';
    m_keep : forall b, b < g_next s -> ~ P b -> b_ins (g_blk s' b) = b_ins (g_blk s b) /\ b_end (g_blk s' b) = b_end (g_blk s b) /\
       b_noskip (g_blk s' b) = b_noskip (g_blk s b);
    m_inv : Inv s';
    m_inj : forall n m b, In (n, b) (g_lbl s') -> In (m, b) (g_lbl s') -> n = m;
    m_disj : forall x, islbl s' x -> ~ prom (g_blk s') x;
    m_fnd : NoDup (map snd (g_fwd s'));
    m_unres : forall b, b_end (g_blk s' b) = ENext None -> exists n, In (n, b) (g_fwd s');
    m_mark : forall b, b < g_next s -> b_state (g_blk s' b) = true -> b_state (g_blk s b) = true \/ (brk = Some b /\ hb = true) \/
       (exists n, In (n, b) (g_lbl s) /\ In n gt);
    m_brk : forall t, brk = Some t -> hb = true -> b_state (g_blk s' t) = true;
    m_newl : forall n b, In (n, b) (g_lbl s') -> g_next s <= b -> b_state (g_blk s' b) = true -> In n gt;
    m_fwd : forall n b, In (n, b) (g_fwd s') -> In (n, b) (g_fwd s) \/ In n gt
  }.

  Lemma post_of_mid brk hb gt cur s c' s' : Mid (fun b => b = cur) brk hb gt s s' ->
    c' < g_next s' -> b_end (g_blk s' c') = ENone -> c' = cur \/ g_next s <= c' ->
    g_last s' = c' \/ (c' = cur /\ g_last s' = g_last s) \/ (g_next s <= g_last s' < g_next s' /\ qf s' (g_last s')) ->
    Post brk hb gt cur s c' s'.
  Proof. intros M. intros. destruct M. constructor; auto. Qed.
  Lemma mid_of_post brk hb gt cur s c' s' : Post brk hb gt cur s c' s' -> Mid (fun b => b = cur) brk hb gt s s'.
  Proof. intros M. destruct M. constructor; auto. Qed.
  Lemma mid_weaken (P P' : nat -> Prop) brk hb gt s s' : (forall b, b < g_next s -> P b -> P' b) -> Mid P brk hb gt s s' -> Mid P' brk hb gt s s'.
  Proof. intros H M. destruct M. constructor; auto. Qed.

  Lemma mid_refl P brk cur s : Pre brk cur s -> Mid P brk false [] s s.
  Proof. intros Q. destruct (post_refl brk cur s Q). constructor; auto. Qed.
  Lemma mid_trans (P P' : nat -> Prop) brk h1 g1 h2 g2 s s1 s2 : Mid P brk h1 g1 s s1 -> Mid P' brk h2 g2 s1 s2 ->
    (forall t, brk = Some t -> t < g_next s) -> (forall b, b < g_next s -> P' b -> P b) -> Mid P brk (h1 || h2) (g1 ++ g2) s s2.
  Proof.
    intros A B HB HP. pose proof (f_next _ _ _ (m_fut _ _ _ _ _ _ A)) as LA. pose proof (f_next _ _ _ (m_fut _ _ _ _ _ _ B)) as LB.
    constructor.
    - eapply fut_trans1; [exact (m_fut _ _ _ _ _ _ A)|exact (m_fut _ _ _ _ _ _ B)].
    - intros b L NP. destruct (m_keep _ _ _ _ _ _ A b L NP) as [A1 [A2 A3]].
      destruct (m_keep _ _ _ _ _ _ B b ltac:(lia)) as [B1 [B2 B3]]; [intros H; apply NP; now apply HP|].
      split; [congruence|split; congruence].
    - exact (m_inv _ _ _ _ _ _ B).
    - exact (m_inj _ _ _ _ _ _ B).
    - exact (m_disj _ _ _ _ _ _ B).
    - exact (m_fnd _ _ _ _ _ _ B).
    - exact (m_unres _ _ _ _ _ _ B).
    - intros b L S. destruct (m_mark _ _ _ _ _ _ B b ltac:(lia) S) as [H|[[H1 H2]|[n [H1 H2]]]].
      + destruct (m_mark _ _ _ _ _ _ A b L H) as [?|[[H1 H2]|[n [H1 H2]]]].
        * now left.
        * right; left. split; [exact H1|]. rewrite H2. reflexivity.
        * right; right. exists n. split; [exact H1|apply in_app_iff; now left].
      + right; left. split; [exact H1|]. rewrite H2. apply orb_true_r.
      + right; right. exists n. split; [|apply in_app_iff; now right]. now apply (f_lbl _ _ _ (m_fut _ _ _ _ _ _ A)).
    - intros t Ht H. apply orb_true_iff in H. destruct H as [H|H].
      + apply (f_state _ _ _ (m_fut _ _ _ _ _ _ B)); [specialize (HB t Ht); lia|]. now apply (m_brk _ _ _ _ _ _ A).
      + now apply (m_brk _ _ _ _ _ _ B).
    - intros n b I L S. apply in_app_iff. destruct (le_lt_dec (g_next s1) b).
      + right. eapply (m_newl _ _ _ _ _ _ B); eassumption.
      + pose proof (f_lbl _ _ _ (m_fut _ _ _ _ _ _ B) n b I ltac:(lia)) as I1.
        destruct (m_mark _ _ _ _ _ _ B b ltac:(lia) S) as [H|[[H1 H2]|[m [H1 H2]]]].
        * left. eapply (m_newl _ _ _ _ _ _ A); eassumption.
        * exfalso. specialize (HB b H1). lia.
        * right. now rewrite (m_inj _ _ _ _ _ _ A n m b I1 H1).
    - intros n b I. destruct (m_fwd _ _ _ _ _ _ B n b I) as [H|H]; [|right; apply in_app_iff; now right].
      destruct (m_fwd _ _ _ _ _ _ A n b H) as [?|?]; [now left|right; apply in_app_iff; now left].
  Qed.

  Lemma mid_add P brk hb gt s s1 : Mid P brk hb gt s s1 -> (forall t, brk = Some t -> t < g_next s) -> Mid P brk hb gt s (addb s1).
  Proof.
    intros M HB. pose proof (f_next _ _ _ (m_fut _ _ _ _ _ _ M)) as L. destruct M as [F K I J X0 ND U MK B NL W]. constructor.
    - now apply fut_add.
    - intros b Lb NP. rewrite b_addb by lia. auto.
    - now apply inv_add.
    - exact J.
    - intros x Lx Hx. apply (X0 x Lx). now apply prom_addb in Hx.
    - exact ND.
    - intros b H. destruct (Nat.eq_dec b (g_next s1)) as [ ->|N]; [rewrite b_addb_new in H; discriminate|]. rewrite b_addb in H by exact N. exact (U b H).
    - intros b Lb S. rewrite b_addb in S by lia. auto.
    - intros t Ht Hb. specialize (HB t Ht). rewrite b_addb by lia. auto.
    - intros n b In0 Lb S. pose proof (i_lbl s1 I n b In0). rewrite b_addb in S by lia. eauto.
    - exact W.
  Qed.

  Lemma mid_end (P : nat -> Prop) brk hb gt s s1 b e : Mid P brk hb gt s s1 -> b < g_next s1 -> b_end (g_blk s1 b) = ENone -> e <> ENone -> e <> ENext None ->
    (forall t ib fi it eb fe et a, e = EIf t ib fi it eb fe et a -> g_next s <= a < g_next s1) ->
    (forall t ib fi it eb fe et a, e = EIf t ib fi it eb fe et a -> ~ islbl s1 a) -> P b \/ g_next s <= b ->
    Mid P brk hb gt s (st_end s1 b e).
  Proof.
    intros M Lb O NE NE2 HI HL HP. pose proof (f_next _ _ _ (m_fut _ _ _ _ _ _ M)) as L. destruct M as [F K I J X0 ND U MK B NL W]. constructor.
    - apply fut_end; [exact F|exact O|exact NE|]. intros t ib fi it eb fe et a H _. now apply (HI _ _ _ _ _ _ _ _ H).
    - intros x Lx NP. rewrite e_end by (intros ->; destruct HP; [contradiction|lia]). auto.
    - apply inv_end; [exact I|exact Lb|exact O|]. intros t ib fi it eb fe et a H. now apply (HI _ _ _ _ _ _ _ _ H).
    - exact J.
    - intros x Lx Hx. destruct (prom_end_or _ _ _ _ Hx) as [Hy|[t [ib [fi [it [eb [fe [et He]]]]]]]]; [exact (X0 x Lx Hy)|]. apply (HL _ _ _ _ _ _ _ _ He). exact Lx.
    - exact ND.
    - intros x H. destruct (Nat.eq_dec x b) as [ ->|N]; [rewrite e_end_same in H; contradiction|]. rewrite e_end in H by exact N. exact (U x H).
    - intros x Lx S. rewrite s_end in S. auto.
    - intros t Ht Hb. rewrite s_end. auto.
    - intros n x In0 Lx S. rewrite s_end in S. eauto.
    - exact W.
  Qed.

  Lemma mid_last P brk hb gt s s1 b : Mid P brk hb gt s s1 -> Mid P brk hb gt s (st_last s1 b).
  Proof.
    intros M. destruct M as [F K I J X0 ND U MK B NL W]. constructor; auto. { now apply fut_last. } { now apply inv_last. }
  Qed.

  Lemma mid_stnew P brk hb gt s s1 b v : Mid P brk hb gt s s1 -> g_next s <= b -> ~ islbl s1 b -> b_state (g_blk s1 b) = false \/ v = true ->
    (forall t, brk = Some t -> t < g_next s) -> Mid P brk hb gt s (st_state s1 b v).
  Proof.
    intros M Lb NL0 H0 HB. pose proof (f_next _ _ _ (m_fut _ _ _ _ _ _ M)) as L. destruct M as [F K I J X0 ND U MK B NL W]. constructor.
    - apply fut_state; auto.
    - intros x Lx NP. rewrite i_state, e_state, k_state. auto.
    - now apply inv_state.
    - exact J.
    - intros x Lx Hx. apply (X0 x Lx). now apply prom_state in Hx.
    - exact ND.
    - intros x H. rewrite e_state in H. exact (U x H).
    - intros x Lx S. rewrite s_state in S by lia. auto.
    - intros t Ht Hb. specialize (HB t Ht). rewrite s_state by lia. auto.
    - intros n x In0 Lx S. rewrite s_state in S by (intros ->; apply NL0; exists n; exact In0). eauto.
    - exact W.
  Qed.

  Lemma mid_stbrk P brk hb gt s s1 t : Mid P brk hb gt s s1 -> brk = Some t -> t < g_next s -> Mid P brk true gt s (st_state s1 t true).
  Proof.
    intros M Hb Lt. destruct M as [F K I J X0 ND U MK B NL W]. constructor.
    - apply fut_state; auto.
    - intros x Lx NP. rewrite i_state, e_state, k_state. auto.
    - now apply inv_state.
    - exact J.
    - intros x Lx Hx. apply (X0 x Lx). now apply prom_state in Hx.
    - exact ND.
    - intros x H. rewrite e_state in H. exact (U x H).
    - intros x Lx S. destruct (Nat.eq_dec x t) as [ ->|N]; [now right; left|]. rewrite s_state in S by exact N.
      destruct (MK x Lx S) as [?|[[H1 H2]|?]]; [now left|congruence|now right; right].
    - intros t' Ht _. rewrite Hb in Ht. injection Ht as <-. apply s_state_same.
    - intros n x In0 Lx S. rewrite s_state in S by lia. eauto.
    - exact W.
  Qed.

  Lemma mid_stlbl P brk hb gt s s1 n b : Mid P brk hb gt s s1 -> In (n, b) (g_lbl s1) -> In n gt -> Mid P brk hb gt s (st_state s1 b true).
  Proof.
    intros M Hn Hg. destruct M as [F K I J X0 ND U MK B NL W]. constructor.
    - apply fut_state; auto. intros _. destruct (le_lt_dec (g_next s) b); [now left|]. right; right. exists n. now apply (f_lbl _ _ _ F).
    - intros x Lx NP. rewrite i_state, e_state, k_state. auto.
    - now apply inv_state.
    - exact J.
    - intros x Lx Hx. apply (X0 x Lx). now apply prom_state in Hx.
    - exact ND.
    - intros x H. rewrite e_state in H. exact (U x H).
    - intros x Lx S. destruct (Nat.eq_dec x b) as [ ->|N].
      + right; right. exists n. split; [now apply (f_lbl _ _ _ F)|exact Hg].
      + rewrite s_state in S by exact N. auto.
    - intros t Ht Hb. destruct (Nat.eq_dec t b) as [ ->|N]; [apply s_state_same|]. rewrite s_state by exact N. auto.
    - intros m x In0 Lx S. destruct (Nat.eq_dec x b) as [ ->|N]; [now rewrite (J m n b In0 Hn)|]. rewrite s_state in S by exact N. eauto.
    - exact W.
  Qed.

  Lemma s_ins s b l x : b_state (g_blk (upd_blk s (add_ins (g_blk s) b l)) x) = b_state (g_blk s x).
  Proof. cbn. gs. destruct (Nat.eq_dec x b); [subst; now rewrite gset_same|now rewrite gset_other]. Qed.
  Lemma e_ins s b l x : b_end (g_blk (upd_blk s (add_ins (g_blk s) b l)) x) = b_end (g_blk s x).
  Proof. cbn. gs. destruct (Nat.eq_dec x b); [subst; now rewrite gset_same|now rewrite gset_other]. Qed.
  Lemma k_ins s b l x : b_noskip (g_blk (upd_blk s (add_ins (g_blk s) b l)) x) = b_noskip (g_blk s x).
  Proof. cbn. gs. destruct (Nat.eq_dec x b); [subst; now rewrite gset_same|now rewrite gset_other]. Qed.
  Lemma b_insx s b l x : x <> b -> g_blk (upd_blk s (add_ins (g_blk s) b l)) x = g_blk s x.
  Proof. intros. cbn. gs. now rewrite gset_other. Qed.
  Lemma i_ins_same s b l : b_ins (g_blk (upd_blk s (add_ins (g_blk s) b l)) b) = b_ins (g_blk s b) ++ l.
  Proof. cbn. gs. now rewrite gset_same. Qed.
  Lemma s_nsk s b x : b_state (g_blk (upd_blk s (set_noskip (g_blk s) b)) x) = b_state (g_blk s x).
  Proof. cbn. gs. destruct (Nat.eq_dec x b); [subst; now rewrite gset_same|now rewrite gset_other]. Qed.
  Lemma e_nsk s b x : b_end (g_blk (upd_blk s (set_noskip (g_blk s) b)) x) = b_end (g_blk s x).
  Proof. cbn. gs. destruct (Nat.eq_dec x b); [subst; now rewrite gset_same|now rewrite gset_other]. Qed.
  Lemma i_nsk s b x : b_ins (g_blk (upd_blk s (set_noskip (g_blk s) b)) x) = b_ins (g_blk s x).
  Proof. cbn. gs. destruct (Nat.eq_dec x b); [subst; now rewrite gset_same|now rewrite gset_other]. Qed.
  Lemma b_nsk s b x : x <> b -> g_blk (upd_blk s (set_noskip (g_blk s) b)) x = g_blk s x.
  Proof. intros. cbn. gs. now rewrite gset_other. Qed.
  Lemma k_nsk s b : b_noskip (g_blk (upd_blk s (set_noskip (g_blk s) b)) b) = true.
  Proof. cbn. gs. now rewrite gset_same. Qed.

  Lemma mid_ins (P : nat -> Prop) brk hb gt s s1 b l : Mid P brk hb gt s s1 -> b < g_next s1 -> b_end (g_blk s1 b) = ENone -> P b \/ g_next s <= b ->
    Mid P brk hb gt s (upd_blk s1 (add_ins (g_blk s1) b l)).
  Proof.
    intros M Lb O HP. pose proof (f_next _ _ _ (m_fut _ _ _ _ _ _ M)) as L. destruct M as [F K I J X0 ND U MK B NL W]. constructor.
    - now apply fut_ins.
    - intros x Lx NP. rewrite b_insx by (intros ->; destruct HP; [contradiction|lia]). auto.
    - now apply inv_ins.
    - exact J.
    - intros x Lx Hx. apply (X0 x Lx). eapply prom_gset; [exact Hx|]. cbn. reflexivity.
    - exact ND.
    - intros x H. rewrite e_ins in H. exact (U x H).
    - intros x Lx S. rewrite s_ins in S. auto.
    - intros t Ht Hb. rewrite s_ins. auto.
    - intros n x In0 Lx S. rewrite s_ins in S. eauto.
    - exact W.
  Qed.

  Lemma mid_noskip (P : nat -> Prop) brk hb gt s s1 b : Mid P brk hb gt s s1 -> g_next s <= b ->
    Mid P brk hb gt s (upd_blk s1 (set_noskip (g_blk s1) b)).
  Proof.
    intros M Lb. pose proof (f_next _ _ _ (m_fut _ _ _ _ _ _ M)) as L. destruct M as [F K I J X0 ND U MK B NL W]. constructor.
    - now apply fut_noskip.
    - intros x Lx NP. rewrite b_nsk by lia. auto.
    - now apply inv_noskip.
    - exact J.
    - intros x Lx Hx. apply (X0 x Lx). eapply prom_gset; [exact Hx|]. cbn. reflexivity.
    - exact ND.
    - intros x H. rewrite e_nsk in H. exact (U x H).
    - intros x Lx S. rewrite s_nsk in S. auto.
    - intros t Ht Hb. rewrite s_nsk. auto.
    - intros n x In0 Lx S. rewrite s_nsk in S. eauto.
    - exact W.
  Qed.

  (** ** Instructions without sub-instructions *)
  Lemma pre_brk brk cur s : Pre brk cur s -> forall t, brk = Some t -> t < g_next s.
  Proof. intros P t H. now apply (q_brk _ _ _ P). Qed.

  Lemma one_ok brk cur s x : Pre brk cur s ->
    Post brk false [] cur s cur (upd_blk s (add_ins (g_blk s) cur [x])) /\
    length (b_ins (g_blk (upd_blk s (add_ins (g_blk s) cur [x])) cur)) = S (length (b_ins (g_blk s cur))) /\
    forall E sF, Fut E (upd_blk s (add_ins (g_blk s) cur [x])) sF -> nth_error (b_ins (g_blk sF cur)) (length (b_ins (g_blk s cur))) = Some x.
  Proof.
    intros P. pose proof (q_cur _ _ _ P) as L. pose proof (q_open _ _ _ P) as O. split; [|split].
    - apply post_of_mid; [|exact L|now rewrite e_ins|now left|right; left; split; reflexivity].
      apply mid_ins; [eapply mid_refl; exact P|exact L|exact O|now left].
    - rewrite i_ins_same, app_length. cbn. lia.
    - intros E sF F. destruct (f_ins _ _ _ F cur L) as [l H]. rewrite H, i_ins_same, <- app_assoc. rewrite nth_error_app2 by lia.
      now rewrite Nat.sub_diag.
  Qed.

  Lemma assign_ok x e : stmt_ok (SAssign x e).
  Proof.
    intros brk cur s c' s' H P _ _. cbn [gather] in H. apply spair in H; destruct H as [ <- <-]. destruct (one_ok brk cur s (IAssign x e) P) as [A [B C]].
    split; [exact A|]. intros E sF F _. rewrite B. change (g_next (upd_blk s (add_ins (g_blk s) cur [IAssign x e]))) with (g_next s). constructor. eapply C; exact F.
  Qed.
  Lemma return_ok : stmt_ok SReturn.
  Proof.
    intros brk cur s c' s' H P _ _. cbn [gather] in H. apply spair in H; destruct H as [ <- <-]. destruct (one_ok brk cur s IReturn P) as [A [B C]].
    split; [exact A|]. intros E sF F _. rewrite B. change (g_next (upd_blk s (add_ins (g_blk s) cur [IReturn]))) with (g_next s). constructor. eapply C; exact F.
  Qed.
  Lemma block_stmt_ok l : block_ok l -> stmt_ok (SBlock l).
  Proof.
    intros B brk cur s c' s' H P NJ GT. rewrite gather_block in H. destruct (B _ _ _ _ _ H P NJ GT) as [A [I [_ [_ [_ TT]]]]].
    split; [exact A|]. intros E sF F HE. rewrite I. cbn [length]. constructor. now apply (TT E).
  Qed.

  Lemma fut_new_eq E E2 s0 s' sF : Inv s0 -> Fut E (addb s0) s' -> Fut E2 s' sF -> ~ E2 (g_next s0) ->
    b_state (g_blk s' (g_next s0)) = false -> prom (g_blk s') (g_next s0) \/ b_state (g_blk sF (g_next s0)) = false.
  Proof.
    intros I F F2 NE S. destruct (b_state (g_blk sF (g_next s0))) eqn:S2; [|now right].
    pose proof (f_next _ _ _ F) as L. rewrite n_addb in L.
    destruct (f_new _ _ _ F2 (g_next s0) ltac:(lia) S2) as [H|[[n H]|[H|H]]]; [congruence| |now left|contradiction].
    pose proof (f_lbl _ _ _ F n _ H ltac:(rewrite n_addb; lia)) as H1. cbn in H1. pose proof (i_lbl s0 I n _ H1). lia.
  Qed.
  Lemma prom_new E s0 s' : Inv s0 -> Fut E (addb s0) s' -> prom (g_blk s') (g_next s0) -> False.
  Proof.
    intros I F H. pose proof (f_prom _ _ _ F (g_next s0) ltac:(rewrite n_addb; lia) H) as H1.
    apply prom_gset in H1; [|cbn; intros; discriminate]. pose proof (i_prom s0 I _ H1). lia.
  Qed.

  Lemma step_ok : stmt_ok SStep.
  Proof.
    intros brk cur s c' s' H P _ _. rewrite gather_step in H. apply spair in H; destruct H as [ <- <-]. unfold st_next.
    pose proof (pre_brk _ _ _ P) as HB. pose proof (q_cur _ _ _ P) as L. pose proof (q_open _ _ _ P) as O. pose proof (q_inv _ _ _ P) as I.
    assert (NL : ~ islbl (addb s) (g_next s)) by (intros [n Hn]; pose proof (i_lbl s I n _ Hn); lia).
    set (s1 := st_state (addb s) (g_next s) true) in *.
    set (s2 := upd_blk s1 (set_noskip (g_blk s1) (g_next s))) in *.
    assert (O2 : b_end (g_blk s2 cur) = ENone) by (unfold s2, s1; rewrite e_nsk, e_state, b_addb by lia; exact O).
    assert (M2 : Mid (fun b => b = cur) brk false [] s s2).
    { apply mid_noskip; [|lia]. apply mid_stnew; [apply mid_add; [eapply mid_refl; exact P|exact HB]|lia|exact NL|now right|exact HB]. }
    assert (N2 : g_next s2 = S (g_next s)) by reflexivity.
    split.
    - apply post_of_mid; [|rewrite n_end; lia| |right; lia|now left].
      + apply mid_end; [exact M2|lia|exact O2|discriminate|discriminate|discriminate|discriminate|now left].
      + rewrite e_end by lia. unfold s2, s1. rewrite e_nsk, e_state, b_addb_new. reflexivity.
    - intros E sF F HE. rewrite n_end, N2.
      destruct (fut_end_eq _ _ sF cur F) as [X1 X2]; [rewrite n_end; lia|rewrite e_end_same; discriminate|rewrite e_end_same; discriminate|].
      rewrite e_end_same in X1. rewrite i_end in X2. unfold s2, s1 in X2. rewrite i_nsk, i_state, b_addb in X2 by lia.
      assert (B0 : b_ins (g_blk (st_end s2 cur (ENext (Some (g_next s)))) (g_next s)) = []).
      { rewrite i_end. unfold s2, s1. now rewrite i_nsk, i_state, b_addb_new. }
      rewrite B0. cbn [length]. constructor.
      + unfold full. now rewrite X2.
      + exact X1.
      + apply (f_state _ _ _ F); [rewrite n_end; lia|]. rewrite s_end. unfold s2. rewrite s_nsk. apply s_state_same.
      + rewrite (f_noskip _ _ _ F); [|rewrite n_end; lia]. rewrite k_end. apply k_nsk.
  Qed.

  Lemma break_ok : stmt_ok SBreak.
  Proof.
    intros brk cur s c' s' H P _ _. cbn [gather] in H. destruct brk as [t|]; [|discriminate].
    change (Some (g_next s, addb (st_state (st_next s cur t) t true)) = Some (c', s')) in H. apply spair in H; destruct H as [ <- <-]. unfold st_next.
    pose proof (pre_brk _ _ _ P) as HB. pose proof (q_cur _ _ _ P) as L. pose proof (q_open _ _ _ P) as O. pose proof (q_inv _ _ _ P) as I.
    set (s1 := st_end s cur (ENext (Some t))) in *. set (s2 := st_state s1 t true) in *.
    assert (M2 : Mid (fun b => b = cur) (Some t) true [] s s2).
    { eapply mid_stbrk; [|reflexivity|now apply HB]. apply mid_end; [eapply mid_refl; exact P|exact L|exact O|discriminate|discriminate|discriminate|discriminate|now left]. }
    assert (N2 : g_next s2 = g_next s) by reflexivity.
    split.
    - apply post_of_mid; [apply mid_add; [exact M2|exact HB]|rewrite n_addb; lia| |right; lia|left; reflexivity].
      rewrite <- N2, b_addb_new. reflexivity.
    - intros E sF F HE. rewrite n_addb, N2.
      destruct (fut_end_eq _ _ sF cur F) as [X1 X2].
      { rewrite n_addb; lia. } { rewrite b_addb by lia. unfold s2. rewrite e_state. unfold s1. rewrite e_end_same. discriminate. }
      { rewrite b_addb by lia. unfold s2. rewrite e_state. unfold s1. rewrite e_end_same. discriminate. }
      rewrite b_addb in X1, X2 by lia. unfold s2 in X1, X2. rewrite e_state in X1. rewrite i_state in X2. unfold s1 in X1, X2.
      rewrite e_end_same in X1. rewrite i_end in X2.
      rewrite <- N2 at 4. rewrite b_addb_new. cbn [b_ins blk0 length]. constructor.
      + unfold full. now rewrite X2.
      + exact X1.
      + specialize (HB t eq_refl). apply (f_state _ _ _ F); [rewrite n_addb; lia|]. rewrite b_addb by lia. apply s_state_same.
      + rewrite <- N2. eapply fut_fresh; [exact (m_inv _ _ _ _ _ _ M2)|exact F|]. rewrite N2. intros X. specialize (HE _ X). lia.
  Qed.

  Definition st_lbl (s : gst) (n b : nat) : gst :=
    {| g_next := g_next s; g_blk := g_blk s; g_last := g_last s; g_lbl := (n, b) :: g_lbl s; g_fwd := g_fwd s |}.
  Lemma label_ok n : stmt_ok (SLabel n).
  Proof.
    intros brk cur s c' s' H P _ _. cbn [gather] in H. destruct (assoc n (g_lbl s)) eqn:NA; [discriminate|].
    change (Some (g_next s, st_end (st_lbl (addb s) n (g_next s)) cur (ENext (Some (g_next s)))) = Some (c', s')) in H. apply spair in H; destruct H as [ <- <-].
    pose proof (pre_brk _ _ _ P) as HB. pose proof (q_cur _ _ _ P) as L. pose proof (q_open _ _ _ P) as O. pose proof (q_inv _ _ _ P) as I.
    assert (M1 : Mid (fun b => b = cur) brk false [] s (addb s)) by (apply mid_add; [eapply mid_refl; exact P|exact HB]).
    assert (M2 : Mid (fun b => b = cur) brk false [] s (st_lbl (addb s) n (g_next s))).
    { destruct M1 as [F K IV J X0 ND U MK B NL W]. constructor; auto.
      - destruct F. constructor; auto.
        + cbn. intros b Lb N. destruct (f_seal b Lb N) as [A1 A2]. split; [exact A1|]. destruct A2 as [A2|[A2 A3]]; [now left|right].
          split; [exact A2|]. intros m Hm. destruct (A3 m Hm) as [x [X1 [X2 X3]]]. exists x. split; [exact X1|split; [|exact X3]].
          destruct (Nat.eqb_spec n m); [|exact X2]. subst m. cbn in X2. rewrite NA in X2. discriminate.
        + cbn. intros m b [[= <- <-]|Hm] Lb; [lia|]. now apply f_lbl.
        + cbn. intros m x Hm. destruct (Nat.eqb_spec n m); [|auto]. subst m. cbn in Hm. rewrite NA in Hm. discriminate.
      - destruct IV. constructor; auto. cbn. intros m b [[= <- <-]|Hm]; [cbn; lia|]. now apply i_lbl in Hm.
      - cbn. intros a b x [[= <- <-]|Ha] [[= <-]|Hb].
        + reflexivity.
        + pose proof (i_lbl s I b _ Hb). lia.
        + subst x. pose proof (i_lbl s I a _ Ha). lia.
        + now apply (J a b x).
      - intros x [m Hm] Hx. change (prom (g_blk (addb s)) x) in Hx. apply prom_addb in Hx. destruct Hm as [[= <- <-]|Hm].
        + pose proof (i_prom s I _ Hx). lia.
        + apply (q_disj _ _ _ P x); [now exists m|exact Hx].
      - intros m b [[= <- <-]|Hm] Lb S; [|now apply (NL m b)]. change (b_state (g_blk (addb s) (g_next s)) = true) in S.
        rewrite b_addb_new in S. discriminate. }
    assert (N2 : g_next (st_lbl (addb s) n (g_next s)) = S (g_next s)) by reflexivity.
    assert (B2 : g_blk (st_lbl (addb s) n (g_next s)) = g_blk (addb s)) by reflexivity.
    set (s2 := st_lbl (addb s) n (g_next s)) in *.
    split.
    - apply post_of_mid; [|rewrite n_end; lia| |right; lia|left; reflexivity].
      + apply mid_end; [exact M2|lia|rewrite B2, b_addb by lia; exact O|discriminate|discriminate|discriminate|discriminate|now left].
      + rewrite e_end by lia. rewrite B2, b_addb_new. reflexivity.
    - intros E sF F HE. rewrite n_end, N2.
      destruct (fut_end_eq _ _ sF cur F) as [X1 X2]; [rewrite n_end; lia|rewrite e_end_same; discriminate|rewrite e_end_same; discriminate|].
      rewrite e_end_same in X1. rewrite i_end, B2, b_addb in X2 by lia.
      rewrite i_end, B2, b_addb_new. cbn [length b_ins blk0]. constructor.
      + unfold full. now rewrite X2.
      + exact X1.
      + rewrite (f_noskip _ _ _ F); [|rewrite n_end; lia]. now rewrite k_end, B2, b_addb_new.
      + unfold LbOf. apply (f_assoc _ _ _ F). cbn. now rewrite Nat.eqb_refl.
  Qed.

  Definition st_fwd (s : gst) (n b : nat) : gst :=
    {| g_next := g_next s; g_blk := g_blk s; g_last := g_last s; g_lbl := g_lbl s; g_fwd := (n, b) :: g_fwd s |}.
  Lemma goto_ok n : stmt_ok (SGoto n).
  Proof.
    intros brk cur s c' s' H P _ _. cbn [gather] in H.
    pose proof (pre_brk _ _ _ P) as HB. pose proof (q_cur _ _ _ P) as L. pose proof (q_open _ _ _ P) as O. pose proof (q_inv _ _ _ P) as I.
    destruct (assoc n (g_lbl s)) as [b|] eqn:NA.
    - change (Some (g_next s, addb (st_state (st_end s cur (ENext (Some b))) b true)) = Some (c', s')) in H. apply spair in H; destruct H as [ <- <-].
      set (s1 := st_end s cur (ENext (Some b))) in *. set (s2 := st_state s1 b true) in *.
      assert (M2 : Mid (fun b => b = cur) brk false [n] s s2).
      { eapply mid_stlbl; [|apply assoc_in; exact NA|now left].
        assert (M1 : Mid (fun b => b = cur) brk false [] s s1).
        { apply mid_end; [eapply mid_refl; exact P|exact L|exact O|discriminate|discriminate|discriminate|discriminate|now left]. }
        destruct M1. constructor; auto.
        - intros x Lx S. destruct (m_mark0 x Lx S) as [?|[?|[m [? []]]]]; auto.
        - intros m x A1 A2 A3. destruct (m_newl0 m x A1 A2 A3). }
      assert (N2 : g_next s2 = g_next s) by reflexivity.
      split.
      + apply post_of_mid; [apply mid_add; [exact M2|exact HB]|rewrite n_addb; lia| |right; lia|left; reflexivity].
        rewrite <- N2, b_addb_new. reflexivity.
      + intros E sF F HE. rewrite n_addb, N2. assert (Lb : b < g_next s) by (apply (i_lbl s I n); now apply assoc_in).
        destruct (fut_end_eq _ _ sF cur F) as [X1 X2].
        { rewrite n_addb; lia. } { rewrite b_addb by lia. unfold s2. rewrite e_state. unfold s1. rewrite e_end_same. discriminate. }
        { rewrite b_addb by lia. unfold s2. rewrite e_state. unfold s1. rewrite e_end_same. discriminate. }
        rewrite b_addb in X1, X2 by lia. unfold s2 in X1, X2. rewrite e_state in X1. rewrite i_state in X2. unfold s1 in X1, X2.
        rewrite e_end_same in X1. rewrite i_end in X2.
        rewrite <- N2 at 4. rewrite b_addb_new. cbn [b_ins blk0 length]. constructor.
        * unfold full. now rewrite X2.
        * right. exists b. split; [exact X1|split].
          -- unfold LbOf. now apply (f_assoc _ _ _ F).
          -- apply (f_state _ _ _ F); [rewrite n_addb; lia|]. rewrite b_addb by lia. apply s_state_same.
        * rewrite <- N2. eapply fut_fresh; [exact (m_inv _ _ _ _ _ _ M2)|exact F|]. rewrite N2. intros X. specialize (HE _ X). lia.
    - change (Some (g_next s, addb (st_fwd (st_end s cur (ENext None)) n cur)) = Some (c', s')) in H. apply spair in H; destruct H as [ <- <-].
      set (s1 := st_end s cur (ENext None)) in *. set (s2 := st_fwd s1 n cur) in *.
      assert (N2 : g_next s2 = g_next s) by reflexivity. assert (B2 : g_blk s2 = g_blk s1) by reflexivity.
      assert (M2 : Mid (fun b => b = cur) brk false [n] s s2).
      { constructor.
        - assert (F : Fut (brkE brk) s s1) by (apply fut_end; [apply fut_refl; exact (i_lbl s I)|exact O|discriminate|discriminate]).
          destruct F. constructor; auto. cbn. now apply incl_tl.
        - intros b Lb Nb. rewrite B2. unfold s1. rewrite e_end by assumption. auto.
        - assert (I1 : Inv s1) by (apply inv_end; [exact I|exact L|exact O|discriminate]).
          destruct I1. constructor; auto. cbn [g_fwd s2 st_fwd]. rewrite B2. intros m b [[= <- <-]|Hm]; [|now apply i_fwd in Hm].
          split; [exact L|]. unfold s1. apply e_end_same.
        - exact (q_inj _ _ _ P).
        - intros x Lx Hx. apply (q_disj _ _ _ P x Lx). rewrite B2 in Hx. unfold s1 in Hx. now apply prom_end in Hx.
        - cbn. constructor; [|exact (q_fnd _ _ _ P)]. intros X. apply in_map_iff in X. destruct X as [[m y] [X1 X2]]. cbn in X1. subst y.
          destruct (i_fwd s I m cur X2) as [_ X]. congruence.
        - intros b Hb. destruct (Nat.eq_dec b cur) as [ ->|Nb]; [exists n; now left|].
          rewrite B2 in Hb. unfold s1 in Hb. rewrite e_end in Hb by assumption. destruct (q_unres _ _ _ P b Hb) as [m Hm]. exists m. now right.
        - intros b Lb S. rewrite B2 in S. unfold s1 in S. rewrite s_end in S. now left.
        - discriminate.
        - intros m b Hm Lb S. pose proof (i_lbl s I m b Hm). lia.
        - intros m b [[= <- <-]|Hm]; [right; now left|now left]. }
      split.
      + apply post_of_mid; [apply mid_add; [exact M2|exact HB]|rewrite n_addb; lia| |right; lia|left; reflexivity].
        rewrite <- N2, b_addb_new. reflexivity.
      + intros E sF F HE. rewrite n_addb, N2.
        assert (EC : b_end (g_blk (addb s2) cur) = ENext None) by (rewrite b_addb by lia; rewrite B2; unfold s1; apply e_end_same).
        destruct (f_seal _ _ _ F cur) as [X2 X1]; [rewrite n_addb; lia|congruence|].
        rewrite b_addb, B2 in X2 by lia. unfold s1 in X2. rewrite i_end in X2. rewrite EC in X1.
        rewrite <- N2 at 4. rewrite b_addb_new. cbn [b_ins blk0 length]. constructor.
        * unfold full. now rewrite X2.
        * destruct X1 as [X1|[_ X1]]; [now left|right]. destruct (X1 n) as [x [Y1 [Y2 Y3]]]; [now left|]. exists x. auto.
        * rewrite <- N2. eapply fut_fresh; [exact (m_inv _ _ _ _ _ _ M2)|exact F|]. rewrite N2. intros X. specialize (HE _ X). lia.
  Qed.

  Lemma join_ok_ d rb : stmt_ok (SJoin d rb).
  Proof.
    intros brk cur s c' s' H P _ _. rewrite gather_join in H. apply spair in H; destruct H as [ <- <-]. unfold st_next.
    pose proof (pre_brk _ _ _ P) as HB. pose proof (q_cur _ _ _ P) as L. pose proof (q_open _ _ _ P) as O. pose proof (q_inv _ _ _ P) as I.
    assert (NL : ~ islbl (addb s) (g_next s)) by (intros [n Hn]; pose proof (i_lbl s I n _ Hn); lia).
    set (n := g_next s) in *.
    set (s1 := st_state (addb s) n true) in *.
    set (s2 := st_end s1 cur (ENext (Some n))) in *.
    set (s4 := st_state (addb s2) (S n) true) in *.
    set (s5 := st_end s4 n (EWait d n (S n))) in *.
    assert (M1 : Mid (fun b => b = cur) brk false [] s s1).
    { apply mid_stnew; [apply mid_add; [eapply mid_refl; exact P|exact HB]|fold n; lia|exact NL|now right|exact HB]. }
    assert (O1 : b_end (g_blk s1 cur) = ENone) by (unfold s1; rewrite e_state, b_addb by (fold n; lia); exact O).
    assert (M2 : Mid (fun b => b = cur) brk false [] s s2).
    { apply mid_end; [exact M1|unfold s1; rewrite n_state, n_addb; fold n; lia|exact O1|discriminate|discriminate|discriminate|discriminate|now left]. }
    assert (N2 : g_next s2 = S n) by reflexivity.
    assert (M4 : Mid (fun b => b = cur) brk false [] s s4).
    { apply mid_stnew; [apply mid_add; [exact M2|exact HB]|fold n; lia| |now right|exact HB].
      intros [m Hm]. change (In (m, S n) (g_lbl s)) in Hm. pose proof (i_lbl s I m _ Hm). fold n in H. lia. }
    assert (O4 : b_end (g_blk s4 n) = ENone).
    { unfold s4. rewrite e_state, b_addb by (rewrite N2; lia). unfold s2. rewrite e_end by lia. unfold s1. rewrite e_state. unfold n. now rewrite b_addb_new. }
    assert (N4 : g_next s4 = S (S n)) by reflexivity.
    assert (M5 : Mid (fun b => b = cur) brk false [] s s5).
    { apply mid_end; [exact M4|lia|exact O4|discriminate|discriminate|discriminate|discriminate|right; fold n; lia]. }
    assert (N5 : g_next s5 = S (S n)) by reflexivity.
    assert (O5 : b_end (g_blk s5 (S n)) = ENone).
    { unfold s5. rewrite e_end by lia. unfold s4. rewrite e_state, <- N2, b_addb_new. reflexivity. }
    assert (B5 : b_ins (g_blk s5 (S n)) = []).
    { unfold s5. rewrite i_end. unfold s4. rewrite i_state, <- N2, b_addb_new. reflexivity. }
    set (s6 := upd_blk s5 (add_ins (g_blk s5) (S n) (map (fun r => IAssign (fst r) (snd r)) rb))) in *.
    assert (M6 : Mid (fun b => b = cur) brk false [] s s6).
    { apply mid_ins; [exact M5|lia|exact O5|right; fold n; lia]. }
    assert (N6 : g_next s6 = S (S n)) by reflexivity.
    split.
    - apply post_of_mid; [exact M6|lia|unfold s6; rewrite e_ins; exact O5|right; fold n; lia|left; reflexivity].
    - intros E sF F HE. rewrite N6.
      assert (EC : b_end (g_blk s6 cur) = ENext (Some n)).
      { unfold s6. rewrite e_ins. unfold s5. rewrite e_end by lia. unfold s4. rewrite e_state, b_addb by lia. unfold s2. apply e_end_same. }
      assert (IC : b_ins (g_blk s6 cur) = b_ins (g_blk s cur)).
      { unfold s6. rewrite b_insx by lia. unfold s5. rewrite i_end. unfold s4. rewrite i_state, b_addb by lia. unfold s2. rewrite i_end.
        unfold s1. rewrite i_state, b_addb by (fold n; lia). reflexivity. }
      assert (EN : b_end (g_blk s6 n) = EWait d n (S n)) by (unfold s6; rewrite e_ins; unfold s5; apply e_end_same).
      assert (IN : b_ins (g_blk s6 n) = []).
      { unfold s6. rewrite b_insx by lia. unfold s5. rewrite i_end. unfold s4. rewrite i_state, b_addb by lia. unfold s2. rewrite i_end.
        unfold s1. rewrite i_state. unfold n. rewrite b_addb_new. reflexivity. }
      destruct (fut_end_eq _ _ sF cur F) as [X1 X2]; [lia|congruence|congruence|].
      destruct (fut_end_eq _ _ sF n F) as [Y1 Y2]; [lia|congruence|congruence|].
      destruct (f_ins _ _ _ F (S n) ltac:(lia)) as [rest R].
      assert (IS : b_ins (g_blk s6 (S n)) = map (fun r => IAssign (fst r) (snd r)) rb) by (unfold s6; rewrite i_ins_same, B5; reflexivity).
      rewrite IS, map_length. econstructor.
      + unfold full. now rewrite X2, IC.
      + unfold nexts. now rewrite X1, EC.
      + apply (f_state _ _ _ F); [lia|]. unfold s6. rewrite s_ins. unfold s5. rewrite s_end. unfold s4. rewrite s_state by lia. rewrite b_addb by lia.
        unfold s2. rewrite s_end. apply s_state_same.
      + rewrite (f_noskip _ _ _ F) by lia. unfold s6. rewrite k_ins. unfold s5. rewrite k_end. unfold s4. rewrite k_state, b_addb by lia.
        unfold s2. rewrite k_end. unfold s1. rewrite k_state. unfold n. now rewrite b_addb_new.
      + unfold full. now rewrite Y2, IN.
      + now rewrite Y1, EN.
      + apply (f_state _ _ _ F); [lia|]. unfold s6. rewrite s_ins. unfold s5. rewrite s_end. unfold s4. apply s_state_same.
      + rewrite (f_noskip _ _ _ F) by lia. unfold s6. rewrite k_ins. unfold s5. rewrite k_end. unfold s4. rewrite k_state, <- N2, b_addb_new. reflexivity.
      + rewrite R, IS. reflexivity.
  Qed.

  (** ** Conditionals *)
  Lemma cond_ok brk cur s e hb gt s4 ia ea fi fe : Pre brk cur s ->
    Mid (fun b => b = g_next s \/ b = S (g_next s)) brk hb gt (addb (addb s)) s4 ->
    g_next s <= ia < g_next s4 -> b_end (g_blk s4 ia) = ENone -> g_next s <= ea < g_next s4 -> b_end (g_blk s4 ea) = ENone -> ia <> ea ->
    let m := g_next s4 in
    let s6 := st_end (st_end (addb s4) ia (ENext (Some m))) ea (ENext (Some m)) in
    let s7 := st_end s6 cur (EIf e (g_next s) fi ia (S (g_next s)) fe ea m) in
    Post brk hb gt cur s m s7 /\ (forall E, Fut E s4 s6) /\ (forall E, Fut E s4 s7) /\
    (forall x, b_state (g_blk s6 x) = b_state (g_blk (addb s4) x)) /\
    b_end (g_blk s6 m) = ENone /\ b_end (g_blk s6 ia) = ENext (Some m) /\ b_end (g_blk s6 ea) = ENext (Some m) /\
    b_ins (g_blk s7 m) = [] /\
    forall E sF, Fut E s7 sF -> (forall x, E x -> x < g_next s) ->
      b_end (g_blk sF cur) = EIf e (g_next s) fi ia (S (g_next s)) fe ea m /\ b_ins (g_blk sF cur) = b_ins (g_blk s cur) /\
      fresh (g_blk sF) (g_next s) /\ fresh (g_blk sF) (S (g_next s)) /\ nexts (g_blk sF) ia m /\ nexts (g_blk sF) ea m /\
      b_ins (g_blk sF ia) = b_ins (g_blk s4 ia) /\ b_ins (g_blk sF ea) = b_ins (g_blk s4 ea) /\
      b_noskip (g_blk sF m) = false /\ (b_state (g_blk sF m) = true -> fi = false \/ fe = false).
  Proof.
    intros P M Li Oi Le Oe Nie m s6 s7.
    pose proof (pre_brk _ _ _ P) as HB. pose proof (q_cur _ _ _ P) as L. pose proof (q_open _ _ _ P) as O. pose proof (q_inv _ _ _ P) as I.
    pose proof (m_inv _ _ _ _ _ _ M) as I4. pose proof (f_next _ _ _ (m_fut _ _ _ _ _ _ M)) as L4. rewrite !n_addb in L4. fold m in L4, Li, Le.
    assert (Oi5 : b_end (g_blk (addb s4) ia) = ENone) by (rewrite b_addb by (fold m; lia); exact Oi).
    assert (Oe5 : b_end (g_blk (st_end (addb s4) ia (ENext (Some m))) ea) = ENone) by (rewrite e_end, b_addb by (fold m; lia); exact Oe).
    assert (Oc4 : b_end (g_blk s4 cur) = ENone).
    { destruct (m_keep _ _ _ _ _ _ M cur) as [_ [K _]]; [rewrite !n_addb; lia|lia|]. rewrite K, !b_addb by (rewrite ?n_addb; lia). exact O. }
    assert (Ic4 : b_ins (g_blk s4 cur) = b_ins (g_blk s cur)).
    { destruct (m_keep _ _ _ _ _ _ M cur) as [K _]; [rewrite !n_addb; lia|lia|]. rewrite K, !b_addb by (rewrite ?n_addb; lia). reflexivity. }
    assert (Oc6 : b_end (g_blk s6 cur) = ENone) by (unfold s6; rewrite !e_end, b_addb by (fold m; lia); exact Oc4).
    assert (M0 : Mid (fun b => b = cur) brk false [] s (addb (addb s))) by (apply mid_add; [apply mid_add; [eapply mid_refl; exact P|exact HB]|exact HB]).
    assert (M4 : Mid (fun b => b = cur) brk hb gt s s4).
    { change hb with (false || hb). change gt with ([] ++ gt). eapply mid_trans; [exact M0|exact M|exact HB|]. intros b Lb [H|H]; lia. }
    assert (M6 : Mid (fun b => b = cur) brk hb gt s s6).
    { unfold s6. apply mid_end; [apply mid_end; [apply mid_add; [exact M4|exact HB]| | | | | | |]| | | | | | |]; try discriminate; try (right; lia).
      - exact Oi5.
      - exact Oe5. }
    assert (N6 : g_next s6 = S m) by reflexivity. assert (N7 : g_next s7 = S m) by reflexivity.
    assert (F6 : forall E s0, Fut E s0 s4 -> Fut E s0 s6).
    { intros E s0 F. apply fut_end; [apply fut_end; [apply fut_add; assumption|exact Oi5|discriminate|discriminate]|exact Oe5|discriminate|discriminate]. }
    assert (F7 : forall E s0, Fut E s0 s4 -> g_next s0 <= m -> Fut E s0 s7).
    { intros E s0 F Hm. apply fut_end; [now apply F6|exact Oc6|discriminate|]. intros t a1 a2 a3 a4 a5 a6 a [= _ _ _ _ _ _ _ <-] _. exact Hm. }
    assert (M7 : Mid (fun b => b = cur) brk hb gt s s7).
    { apply mid_end; [exact M6|lia|exact Oc6|discriminate|discriminate| | |now left]; intros t a1 a2 a3 a4 a5 a6 a [= _ _ _ _ _ _ _ <-]; [lia|].
      intros [k Hk]. change (In (k, m) (g_lbl s4)) in Hk. pose proof (i_lbl s4 I4 k _ Hk). unfold m in *. lia. }
    assert (E6m : b_end (g_blk s6 m) = ENone).
    { unfold s6. rewrite !e_end by lia. unfold m. now rewrite b_addb_new. }
    assert (B7 : forall x, b_ins (g_blk s7 x) = b_ins (g_blk (addb s4) x)) by (intros x; unfold s7, s6; now rewrite !i_end).
    assert (E7i : b_end (g_blk s7 ia) = ENext (Some m)).
    { unfold s7. rewrite e_end by lia. unfold s6. rewrite e_end by lia. apply e_end_same. }
    assert (E7e : b_end (g_blk s7 ea) = ENext (Some m)).
    { unfold s7. rewrite e_end by lia. unfold s6. apply e_end_same. }
    split; [|split; [|split; [|split; [|split; [|split; [|split; [|split]]]]]]].
    - apply post_of_mid; [exact M7|lia|unfold s7; rewrite e_end by lia; exact E6m|right; lia|left; reflexivity].
    - intros E. apply F6. apply fut_refl. exact (i_lbl s4 I4).
    - intros E. apply F7; [apply fut_refl; exact (i_lbl s4 I4)|lia].
    - intros x. unfold s6. now rewrite !s_end.
    - exact E6m.
    - unfold s6. rewrite e_end by lia. apply e_end_same.
    - unfold s6. apply e_end_same.
    - rewrite B7. unfold m. now rewrite b_addb_new.
    - intros E sF F HE.
      assert (FB : Fut (fun x => brkE brk x \/ E x) (addb (addb s)) sF).
      { eapply fut_trans; [|exact F]. apply F7; [exact (m_fut _ _ _ _ _ _ M)|rewrite !n_addb; lia]. }
      assert (FA : Fut (fun x => brkE brk x \/ E x) (addb s) sF).
      { eapply fut_trans1; [|exact FB]. apply fut_add; [now apply inv_add|apply fut_refl; exact (i_lbl _ (inv_add s I))]. }
      assert (EN : forall x, g_next s <= x -> ~ (brkE brk x \/ E x)) by (intros x Hx [H|H]; [specialize (HB _ H)|specialize (HE _ H)]; lia).
      assert (E7c : b_end (g_blk s7 cur) = EIf e (g_next s) fi ia (S (g_next s)) fe ea m) by apply e_end_same.
      destruct (fut_end_eq _ _ sF cur F) as [X1 X2]; [lia|congruence|congruence|].
      destruct (fut_end_eq _ _ sF ia F) as [Y1 Y2]; [lia|congruence|congruence|].
      destruct (fut_end_eq _ _ sF ea F) as [Z1 Z2]; [lia|congruence|congruence|].
      rewrite B7 in X2, Y2, Z2. rewrite b_addb in X2, Y2, Z2 by (fold m; lia).
      split; [congruence|]. split; [congruence|].
      split; [eapply fut_fresh; [exact I|exact FA|apply EN; lia]|].
      split; [rewrite <- n_addb; eapply fut_fresh; [now apply inv_add|exact FB|apply EN; rewrite n_addb; lia]|].
      split; [unfold nexts; congruence|]. split; [unfold nexts; congruence|]. split; [exact Y2|]. split; [exact Z2|].
      split.
      + rewrite (f_noskip _ _ _ F) by lia. unfold s7, s6. rewrite !k_end. unfold m. now rewrite b_addb_new.
      + intros S. assert (F4 : Fut (fun _ => False) (addb s4) s6).
        { apply fut_end; [apply fut_end; [apply fut_refl; exact (i_lbl _ (inv_add s4 I4))|exact Oi5|discriminate|discriminate]|exact Oe5|discriminate|discriminate]. }
        destruct (f_new _ _ _ F m ltac:(lia) S) as [H|[[n H]|[H|H]]].
        * unfold s7, s6 in H. rewrite !s_end in H. unfold m in H. rewrite b_addb_new in H. discriminate.
        * change (In (n, m) (g_lbl s4)) in H. pose proof (i_lbl s4 I4 n _ H). unfold m in *. lia.
        * destruct H as [y [t [a1 [a2 [a3 [a4 [a5 [a6 [H H2]]]]]]]]]. destruct (Nat.eq_dec y cur) as [ ->|Ny].
          -- rewrite E7c in H. injection H as <- <- <- <- <- <- <-. exact H2.
          -- unfold s7 in H. rewrite e_end in H by exact Ny. exfalso. eapply (prom_new _ s4 s6); [exact I4|exact F4|].
             exists y, t, a1, a2, a3, a4, a5, a6. split; [exact H|exact H2].
        * specialize (HE _ H). lia.
  Qed.

  (** ** Origin of the labels *)
  Definition lbl_from (ls : list nat) (s s' : gst) : Prop := forall n b, In (n, b) (g_lbl s') -> In (n, b) (g_lbl s) \/ In n ls.
  Definition lbl_ok (st : stmt) : Prop := forall brk cur s c' s', gather fuel brk st cur s = Some (c', s') -> lbl_from (labels st) s s'.

  Lemma lbl_trans l1 l2 s1 s2 s3 : lbl_from l1 s1 s2 -> lbl_from l2 s2 s3 -> lbl_from (l1 ++ l2) s1 s3.
  Proof.
    intros A B n b H. destruct (B n b H) as [H1|H1]; [|right; apply in_app_iff; now right].
    destruct (A n b H1) as [H2|H2]; [now left|right; apply in_app_iff; now left].
  Qed.
  Lemma lbl_list l : Forall lbl_ok l -> forall brk cur s c' s', gather_list fuel brk l cur s = Some (c', s') -> lbl_from (labelss l) s s'.
  Proof.
    intros F. induction F as [|x r Hx Hr IH]; intros brk cur s c' s' H.
    - cbn in H. apply spair in H. destruct H as [ <- <-]. now left.
    - rewrite gather_list_cons in H. destruct (gather fuel brk x cur s) as [[c1 s1]|] eqn:G; [|discriminate]. cbn [obind] in H.
      change (labelss (x :: r)) with (labels x ++ labelss r). eapply lbl_trans; [eapply Hx; exact G|eapply IH; exact H].
  Qed.
  Lemma lbl_block l : Forall lbl_ok l -> forall brk cur s c' s', gblock brk l cur s = Some (c', s') -> lbl_from (labelss l) s s'.
  Proof.
    intros F brk cur s c' s' H. unfold gblock in H.
    destruct (gather_list fuel brk l (g_next s) (st_next (addb s) cur (g_next s))) as [[a s3]|] eqn:G; [|discriminate].
    cbn [obind] in H. apply spair in H. destruct H as [ <- <-]. exact (lbl_list l F _ _ _ _ _ G).
  Qed.
  Lemma lbl_cases af cs : Forall (fun c => Forall lbl_ok (snd c)) cs -> forall brk s bs s', gcases brk af cs s = Some (bs, s') ->
    lbl_from (flat_map (fun c => labelss (snd c)) cs) s s'.
  Proof.
    intros F. induction F as [|[v l] r Hx Hr IH]; intros brk s bs s' H.
    - cbn in H. apply spair in H. destruct H as [ <- <-]. now left.
    - cbn [gcases] in H. destruct (gblock brk l (g_next s) (addb s)) as [[ca s2]|] eqn:G; [|discriminate]. cbn [obind] in H.
      destruct (gcases brk af r (st_next s2 ca af)) as [[bs' s3]|] eqn:G2; [|discriminate]. cbn [obind] in H. apply spair in H. destruct H as [ <- <-].
      cbn [flat_map snd]. eapply lbl_trans; [exact (lbl_block l Hx _ _ _ _ _ G)|exact (IH _ _ _ _ G2)].
  Qed.
  Lemma lbl_all st : lbl_ok st.
  Proof.
    induction st using stmt_ind'; intros brk cur s c' s' HH.
    - cbn [gather] in HH. apply spair in HH. destruct HH as [ <- <-]. now left.
    - rewrite gather_block in HH. exact (lbl_block l H _ _ _ _ _ HH).
    - rewrite gather_if in HH. destruct (gblock brk l (g_next s) (addb (addb s))) as [[ia s3]|] eqn:G; [|discriminate]. cbn [obind] in HH.
      destruct (stateless fuel _ [] [g_next s]) as [fl|]; [|discriminate]. cbn [obind] in HH. apply spair in HH. destruct HH as [ <- <-].
      exact (lbl_block l H _ _ _ _ _ G).
    - rewrite gather_ifelse in HH. destruct (gblock brk l1 (g_next s) (addb (addb s))) as [[ia s3]|] eqn:G; [|discriminate]. cbn [obind] in HH.
      destruct (gblock brk l2 (S (g_next s)) s3) as [[ea s4]|] eqn:G2; [|discriminate]. cbn [obind] in HH.
      destruct (stateless fuel _ [] [g_next s]) as [fi|]; [|discriminate]. cbn [obind] in HH.
      destruct (stateless fuel _ [] [S (g_next s)]) as [fe|]; [|discriminate]. cbn [obind] in HH. apply spair in HH. destruct HH as [ <- <-].
      cbn [labels]. eapply lbl_trans; [exact (lbl_block l1 H _ _ _ _ _ G)|exact (lbl_block l2 H0 _ _ _ _ _ G2)].
    - rewrite gather_switch in HH. destruct (gcases brk (g_next s) cs (addb s)) as [[bs s2]|] eqn:G; [|discriminate]. cbn [obind] in HH.
      destruct (gflags _ bs) as [fl|]; [|discriminate]. cbn [obind] in HH. apply spair in HH. destruct HH as [ <- <-].
      exact (lbl_cases _ cs H _ _ _ _ G).
    - rewrite gather_while in HH.
      destruct (gblock (Some (S (S (g_next s)))) l (S (g_next s)) (addb (addb (st_next (addb s) cur (g_next s))))) as [[il s5]|] eqn:G; [|discriminate].
      cbn [obind] in HH. apply spair in HH. destruct HH as [ <- <-]. exact (lbl_block l H _ _ _ _ _ G).
    - cbn [gather] in HH. destruct brk as [t|]; [|discriminate]. injection HH as <- <-. now left.
    - rewrite gather_step in HH. apply spair in HH. destruct HH as [ <- <-]. now left.
    - cbn [gather] in HH. destruct (assoc n (g_lbl s)); [discriminate|]. apply spair in HH. destruct HH as [ <- <-].
      intros m b [[= <- <-]|Hm]; [right; now left|now left].
    - cbn [gather] in HH. destruct (assoc n (g_lbl s)); apply spair in HH; destruct HH as [ <- <-]; now left.
    - cbn [gather] in HH. apply spair in HH. destruct HH as [ <- <-]. now left.
    - rewrite gather_join in HH. apply spair in HH. destruct HH as [ <- <-]. now left.
  Qed.
  Lemma lbl_alls l : Forall lbl_ok l.
  Proof. apply Forall_forall. intros x _. apply lbl_all. Qed.

  Lemma quietl_in l n : quietl T l = true -> timelesss l = true -> In n (labelss l) -> ~ In n T.
  Proof.
    unfold quietl. intros H TL I. rewrite TL in H. cbn [negb orb] in H. rewrite forallb_forall in H. specialize (H n I).
    apply negb_true_iff in H. now apply memb_notIn in H.
  Qed.

  Lemma pre_mid P brk c s0 hb gt s : Pre brk c s0 -> Mid P brk hb gt s0 s -> forall cur, cur < g_next s -> b_end (g_blk s cur) = ENone -> Pre brk cur s.
  Proof.
    intros Q M cur L O. constructor; [exact (m_inv _ _ _ _ _ _ M)|exact (m_inj _ _ _ _ _ _ M)|exact (m_disj _ _ _ _ _ _ M)|exact (m_fnd _ _ _ _ _ _ M)|exact (m_unres _ _ _ _ _ _ M)|exact L|exact O|].
    intros t Ht. destruct (q_brk _ _ _ Q t Ht) as [Lt N]. pose proof (f_next _ _ _ (m_fut _ _ _ _ _ _ M)). split; [lia|].
    intros [n I]. apply N. exists n. now apply (f_lbl _ _ _ (m_fut _ _ _ _ _ _ M)).
  Qed.

  Lemma if_ok e l : Forall stmt_ok l -> stmt_ok (SIf e l).
  Proof.
    intros FS brk cur s c' s' H P NJ GT. rewrite gather_if in H. unfold st_next in H.
    destruct (gblock brk l (g_next s) (addb (addb s))) as [[ia s3]|] eqn:G; [|discriminate]. cbn [obind] in H.
    destruct (stateless fuel _ [] [g_next s]) as [fl|] eqn:SL; [|discriminate]. cbn [obind] in H. apply spair in H. destruct H as [ <- <-].
    cbn [nojump] in NJ. apply andb_true_iff in NJ. destruct NJ as [NQ NJ]. change (incl (gotoss l) T) in GT.
    pose proof (pre_brk _ _ _ P) as HB. pose proof (q_inv _ _ _ P) as I.
    assert (M0 : Mid (fun b => b = cur) brk false [] s (addb (addb s))) by (apply mid_add; [apply mid_add; [eapply mid_refl; exact P|exact HB]|exact HB]).
    assert (P2 : Pre brk (g_next s) (addb (addb s))).
    { eapply pre_mid; [exact P|exact M0|rewrite !n_addb; lia|]. rewrite b_addb by (rewrite n_addb; lia). now rewrite b_addb_new. }
    destruct (block_from l (list_from l FS) _ _ _ _ _ G P2 NJ GT) as [A [BI [WI [LI [QI TA]]]]].
    pose proof (f_next _ _ _ (p_fut _ _ _ _ _ _ _ A)) as L3. rewrite !n_addb in L3, WI.
    assert (Oe : b_end (g_blk s3 (S (g_next s))) = ENone /\ b_ins (g_blk s3 (S (g_next s))) = []).
    { destruct (p_keep _ _ _ _ _ _ _ A (S (g_next s))) as [K1 [K2 _]]; [rewrite !n_addb; lia|lia|].
      assert (X : g_blk (addb (addb s)) (S (g_next s)) = blk0) by (rewrite <- (n_addb s); apply b_addb_new). now rewrite K1, K2, X. }
    destruct Oe as [Oe Ie].
    assert (M3 : Mid (fun b => b = g_next s \/ b = S (g_next s)) brk (hasbrks l) (gotoss l) (addb (addb s)) s3).
    { eapply mid_weaken; [|eapply mid_of_post; exact A]. cbn. intros b _ ->. now left. }
    pose proof (p_cur _ _ _ _ _ _ _ A) as Lia3.
    destruct (cond_ok brk cur s e (hasbrks l) (gotoss l) s3 ia (S (g_next s)) fl true P M3 ltac:(lia) (p_open _ _ _ _ _ _ _ A) ltac:(lia) Oe ltac:(lia))
      as [PP [F6 [F7 [S6 [O6 [E6i [E6e [I7 D]]]]]]]].
    set (s6 := st_end (st_end (addb s3) ia (ENext (Some (g_next s3)))) (S (g_next s)) (ENext (Some (g_next s3)))) in *.
    assert (TB : forall E sF, Fut E s3 sF -> (forall x, E x -> x < g_next s) ->
      trb (g_blk sF) (LbOf sF) brk l (S (S (g_next s))) (g_next s3) (g_next s) 0 ia).
    { intros E sF F HE. assert (X : b_ins (g_blk (addb (addb s)) (g_next s)) = []).
      { rewrite b_addb by (rewrite n_addb; lia). now rewrite b_addb_new. }
      rewrite X in TA. apply (TA E sF F). intros x Hx. specialize (HE x Hx). rewrite !n_addb. lia. }
    assert (FL : fl = timelesss l).
    { eapply (branch_flag (g_blk s6) (LbOf s6)); [eapply (TB noE); [apply F6|intros x []]|lia| | |exact E6i| |exact O6|exact SL].
      - intros TL n x Hn Hx. destruct (b_state (g_blk s6 x)) eqn:S; [|reflexivity]. exfalso.
        assert (Hn' : In (n, x) (g_lbl s3)) by (apply assoc_in; exact Hn).
        rewrite S6, b_addb in S by lia.
        pose proof (p_newl _ _ _ _ _ _ _ A n x Hn' ltac:(rewrite !n_addb; lia) S) as X. apply GT in X. revert X.
        apply (quietl_in l); [exact NQ|exact TL|].
        destruct (lbl_block l (lbl_alls l) _ _ _ _ _ G n x Hn') as [Y|Y]; [|exact Y].
        change (In (n, x) (g_lbl s)) in Y. pose proof (i_lbl s I n x Y). lia.
      - rewrite S6, b_addb by lia. destruct (b_state (g_blk s3 (g_next s))) eqn:S; [|reflexivity].
        destruct (p_mark _ _ _ _ _ _ _ A (g_next s) ltac:(rewrite !n_addb; lia) S) as [X|[[X _]|[n [X _]]]].
        + rewrite b_addb in X by (rewrite n_addb; lia). rewrite b_addb_new in X. discriminate.
        + specialize (HB _ X). lia.
        + change (In (n, g_next s) (g_lbl s)) in X. pose proof (i_lbl s I n _ X). lia.
      - rewrite S6. now rewrite b_addb_new. }
    split; [exact PP|]. intros E sF F HE. destruct (D E sF F HE) as [D1 [D2 [D3 [D4 [D5 [D6 [D7 [D8 [D9 D10]]]]]]]]].
    rewrite I7. cbn [length]. change (g_next (st_end s6 cur (EIf e (g_next s) fl ia (S (g_next s)) true (S (g_next s)) (g_next s3)))) with (S (g_next s3)).
    rewrite FL in *. apply tr_if with ia.
    - unfold full. now rewrite D2.
    - exact D1.
    - exact D3.
    - exact D4.
    - apply (TB E); [|exact HE]. eapply fut_trans1; [apply F7|exact F].
    - unfold full. now rewrite D7, BI.
    - exact D5.
    - unfold full. now rewrite D8, Ie.
    - exact D6.
    - exact D9.
    - intros S. destruct (D10 S) as [X|X]; [exact X|discriminate].
  Qed.

  Lemma ifelse_ok e l1 l2 : Forall stmt_ok l1 -> Forall stmt_ok l2 -> stmt_ok (SIfElse e l1 l2).
  Proof.
    intros FS1 FS2 brk cur s c' s' H P NJ GT. rewrite gather_ifelse in H. unfold st_next in H.
    destruct (gblock brk l1 (g_next s) (addb (addb s))) as [[ia s3]|] eqn:G; [|discriminate]. cbn [obind] in H.
    destruct (gblock brk l2 (S (g_next s)) s3) as [[ea s4]|] eqn:G2; [|discriminate]. cbn [obind] in H.
    destruct (stateless fuel _ [] [g_next s]) as [fi|] eqn:SL; [|discriminate]. cbn [obind] in H.
    destruct (stateless fuel _ [] [S (g_next s)]) as [fe|] eqn:SL2; [|discriminate]. cbn [obind] in H. apply spair in H. destruct H as [ <- <-].
    cbn [nojump] in NJ. apply andb_true_iff in NJ. destruct NJ as [NJ NJ2]. apply andb_true_iff in NJ. destruct NJ as [NQ NJ1].
    apply andb_true_iff in NQ. destruct NQ as [NQ1 NQ2]. change (incl (gotoss l1 ++ gotoss l2) T) in GT.
    assert (GT12 := GT). apply incl_app_inv in GT12. destruct GT12 as [GT1 GT2].
    pose proof (pre_brk _ _ _ P) as HB. pose proof (q_inv _ _ _ P) as I.
    assert (M0 : Mid (fun b => b = cur) brk false [] s (addb (addb s))) by (apply mid_add; [apply mid_add; [eapply mid_refl; exact P|exact HB]|exact HB]).
    assert (P2 : Pre brk (g_next s) (addb (addb s))).
    { eapply pre_mid; [exact P|exact M0|rewrite !n_addb; lia|]. rewrite b_addb by (rewrite n_addb; lia). now rewrite b_addb_new. }
    destruct (block_from l1 (list_from l1 FS1) _ _ _ _ _ G P2 NJ1 GT1) as [A [BI [WI [LI [QI TA]]]]].
    pose proof (f_next _ _ _ (p_fut _ _ _ _ _ _ _ A)) as L3. rewrite !n_addb in L3, WI.
    pose proof (p_cur _ _ _ _ _ _ _ A) as Lia3.
    assert (Oe : b_end (g_blk s3 (S (g_next s))) = ENone /\ b_ins (g_blk s3 (S (g_next s))) = []).
    { destruct (p_keep _ _ _ _ _ _ _ A (S (g_next s))) as [K1 [K2 _]]; [rewrite !n_addb; lia|lia|].
      assert (X : g_blk (addb (addb s)) (S (g_next s)) = blk0) by (rewrite <- (n_addb s); apply b_addb_new). now rewrite K1, K2, X. }
    destruct Oe as [Oe Ie].
    assert (P3 : Pre brk (S (g_next s)) s3).
    { eapply pre_mid; [exact P2|eapply mid_of_post; exact A|lia|exact Oe]. }
    destruct (block_from l2 (list_from l2 FS2) _ _ _ _ _ G2 P3 NJ2 GT2) as [B [BE [WE [LE [QE TB]]]]].
    pose proof (f_next _ _ _ (p_fut _ _ _ _ _ _ _ B)) as L4. pose proof (p_cur _ _ _ _ _ _ _ B) as Lea4.
    assert (HB2 : forall t, brk = Some t -> t < g_next (addb (addb s))) by (intros t Ht; specialize (HB t Ht); rewrite !n_addb; lia).
    assert (M4 : Mid (fun b => b = g_next s \/ b = S (g_next s)) brk (hasbrks l1 || hasbrks l2) (gotoss l1 ++ gotoss l2) (addb (addb s)) s4).
    { eapply mid_trans; [eapply mid_weaken; [|eapply mid_of_post; exact A]|eapply mid_of_post; exact B|exact HB2|]; cbn; intros b _ ->; [now left|now right]. }
    assert (Oi4 : b_end (g_blk s4 ia) = ENone /\ b_ins (g_blk s4 ia) = []).
    { destruct (p_keep _ _ _ _ _ _ _ B ia) as [K1 [K2 _]]; [lia|lia|]. rewrite K1, K2. split; [exact (p_open _ _ _ _ _ _ _ A)|exact BI]. }
    destruct Oi4 as [Oi4 Ii4].
    destruct (cond_ok brk cur s e (hasbrks l1 || hasbrks l2) (gotoss l1 ++ gotoss l2) s4 ia ea fi fe P M4 ltac:(lia) Oi4 ltac:(lia) (p_open _ _ _ _ _ _ _ B) ltac:(lia))
      as [PP [F6 [F7 [S6 [O6 [E6i [E6e [I7 D]]]]]]]].
    set (s6 := st_end (st_end (addb s4) ia (ENext (Some (g_next s4)))) ea (ENext (Some (g_next s4)))) in *.
    assert (TA' : forall E sF, Fut E s4 sF -> (forall x, E x -> x < g_next s) ->
      trb (g_blk sF) (LbOf sF) brk l1 (S (S (g_next s))) (g_next s3) (g_next s) 0 ia).
    { intros E sF F HE. assert (X : b_ins (g_blk (addb (addb s)) (g_next s)) = []).
      { rewrite b_addb by (rewrite n_addb; lia). now rewrite b_addb_new. }
      rewrite X in TA. apply (TA (fun x => brkE brk x \/ E x) sF); [eapply fut_trans; [exact (p_fut _ _ _ _ _ _ _ B)|exact F]|].
      intros x [Hx|Hx]; [specialize (HB x Hx)|specialize (HE x Hx)]; rewrite !n_addb; lia. }
    assert (TB' : forall E sF, Fut E s4 sF -> (forall x, E x -> x < g_next s) ->
      trb (g_blk sF) (LbOf sF) brk l2 (g_next s3) (g_next s4) (S (g_next s)) 0 ea).
    { intros E sF F HE. rewrite Ie in TB. apply (TB E sF F). intros x Hx. specialize (HE x Hx). lia. }
    assert (ST : forall x, g_next s <= x < g_next s4 -> b_state (g_blk s6 x) = true -> x < S (S (g_next s)) -> False).
    { intros x Hx SS Hx2. rewrite S6, b_addb in SS by lia.
      destruct (m_mark _ _ _ _ _ _ M4 x ltac:(rewrite !n_addb; lia) SS) as [X|[[X _]|[n [X _]]]].
      + assert (x = g_next s \/ x = S (g_next s)) as [ ->| ->] by lia.
        * rewrite b_addb in X by (rewrite n_addb; lia). rewrite b_addb_new in X. discriminate.
        * rewrite <- (n_addb s) in X. rewrite b_addb_new in X. discriminate.
      + specialize (HB _ X). lia.
      + change (In (n, x) (g_lbl s)) in X. pose proof (i_lbl s I n _ X). lia. }
    assert (LT : forall n x, LbOf s6 n x -> S (S (g_next s)) <= x < g_next s4 -> b_state (g_blk s6 x) = true -> In n T /\ In (n, x) (g_lbl s4)).
    { intros n x Hn Hx S. assert (Hn' : In (n, x) (g_lbl s4)) by (apply assoc_in; exact Hn). split; [|exact Hn'].
      rewrite S6, b_addb in S by lia. apply GT. apply (m_newl _ _ _ _ _ _ M4 n x Hn'); [rewrite !n_addb; lia|exact S]. }
    assert (FI : fi = timelesss l1).
    { eapply (branch_flag (g_blk s6) (LbOf s6)); [eapply (TA' noE); [apply F6|intros x []]|lia| | |exact E6i| |exact O6|exact SL].
      - intros TL n x Hn Hx. destruct (b_state (g_blk s6 x)) eqn:S; [|reflexivity]. exfalso.
        destruct (LT n x Hn ltac:(lia) S) as [X Hn']. revert X. apply (quietl_in l1); [exact NQ1|exact TL|].
        pose proof (f_lbl _ _ _ (p_fut _ _ _ _ _ _ _ B) n x Hn' ltac:(lia)) as Hn3.
        destruct (lbl_block l1 (lbl_alls l1) _ _ _ _ _ G n x Hn3) as [Y|Y]; [|exact Y].
        change (In (n, x) (g_lbl s)) in Y. pose proof (i_lbl s I n x Y). lia.
      - destruct (b_state (g_blk s6 (g_next s))) eqn:S; [|reflexivity]. exfalso. apply (ST (g_next s)); [lia|exact S|lia].
      - rewrite S6. now rewrite b_addb_new. }
    assert (FE : fe = timelesss l2).
    { eapply (branch_flag (g_blk s6) (LbOf s6)); [eapply (TB' noE); [apply F6|intros x []]|lia| | |exact E6e| |exact O6|exact SL2].
      - intros TL n x Hn Hx. destruct (b_state (g_blk s6 x)) eqn:S; [|reflexivity]. exfalso.
        destruct (LT n x Hn ltac:(lia) S) as [X Hn']. revert X. apply (quietl_in l2); [exact NQ2|exact TL|].
        destruct (lbl_block l2 (lbl_alls l2) _ _ _ _ _ G2 n x Hn') as [Y|Y]; [|exact Y].
        pose proof (i_lbl s3 (p_inv _ _ _ _ _ _ _ A) n x Y). lia.
      - destruct (b_state (g_blk s6 (S (g_next s)))) eqn:SS; [|reflexivity]. exfalso. apply (ST (S (g_next s))); [lia|exact SS|lia].
      - rewrite S6. now rewrite b_addb_new. }
    split; [exact PP|]. intros E sF F HE. destruct (D E sF F HE) as [D1 [D2 [D3 [D4 [D5 [D6 [D7 [D8 [D9 D10]]]]]]]]].
    rewrite I7. cbn [length]. change (g_next (st_end s6 cur (EIf e (g_next s) fi ia (S (g_next s)) fe ea (g_next s4)))) with (S (g_next s4)).
    rewrite FI, FE in *. apply tr_ifelse with (g_next s3) ia ea.
    - unfold full. now rewrite D2.
    - exact D1.
    - exact D3.
    - exact D4.
    - apply (TA' E); [|exact HE]. eapply fut_trans1; [apply F7|exact F].
    - unfold full. now rewrite D7, Ii4.
    - exact D5.
    - apply (TB' E); [|exact HE]. eapply fut_trans1; [apply F7|exact F].
    - unfold full. now rewrite D8, BE.
    - exact D6.
    - exact D9.
    - exact D10.
  Qed.

  (** ** Switches *)
  Lemma cases_ok af cs : Forall (fun c => Forall stmt_ok (snd c)) cs -> forall brk s bs s', gcases brk af cs s = Some (bs, s') -> Pre brk af s ->
    forallb (fun c => nojumps T (snd c)) cs = true -> incl (flat_map (fun c => gotoss (snd c)) cs) T ->
    Mid (fun _ => False) brk (existsb (fun c => hasbrks (snd c)) cs) (flat_map (fun c => gotoss (snd c)) cs) s s' /\
    ((bs = [] /\ s' = s) \/ (g_next s <= g_last s' < g_next s' /\ qf s' (g_last s'))) /\
    forall E sF, Fut E s' sF -> (forall x, E x -> x < g_next s) -> trcs (g_blk sF) (LbOf sF) brk af cs bs (g_next s) (g_next s').
  Proof.
    intros F. induction F as [|[v l] r Hx Hr IH]; intros brk s bs s' H P NJ GT.
    - cbn in H. apply spair in H. destruct H as [ <- <-]. split; [eapply mid_refl; exact P|]. split; [left; split; reflexivity|]. intros. constructor.
    - cbn [gcases] in H. destruct (gblock brk l (g_next s) (addb s)) as [[ca s2]|] eqn:G; [|discriminate]. cbn [obind] in H.
      destruct (gcases brk af r (st_next s2 ca af)) as [[bs' s3]|] eqn:G2; [|discriminate]. cbn [obind] in H. apply spair in H. destruct H as [ <- <-].
      unfold st_next in G2. cbn [forallb snd flat_map] in NJ, GT. apply andb_true_iff in NJ. destruct NJ as [NJ1 NJ2]. apply incl_app_inv in GT. destruct GT as [GT1 GT2].
      pose proof (pre_brk _ _ _ P) as HB. pose proof (q_inv _ _ _ P) as I. pose proof (q_cur _ _ _ P) as Laf.
      assert (M0 : Mid (fun _ => False) brk false [] s (addb s)) by (apply mid_add; [eapply mid_refl; exact P|exact HB]).
      assert (P1 : Pre brk (g_next s) (addb s)) by (eapply pre_mid; [exact P|exact M0|rewrite n_addb; lia|now rewrite b_addb_new]).
      destruct (block_from l (list_from l Hx) _ _ _ _ _ G P1 NJ1 GT1) as [A [BI [WI [LI [QI TA]]]]].
      pose proof (f_next _ _ _ (p_fut _ _ _ _ _ _ _ A)) as L2. rewrite n_addb in L2, WI. pose proof (p_cur _ _ _ _ _ _ _ A) as Lca.
      pose proof (p_open _ _ _ _ _ _ _ A) as Oca.
      assert (M2 : Mid (fun _ => False) brk (hasbrks l) (gotoss l) s s2).
      { change (hasbrks l) with (false || hasbrks l). change (gotoss l) with ([] ++ gotoss l).
        eapply mid_trans; [exact M0|eapply mid_of_post; exact A|exact HB|]. cbn. intros b Lb ->. lia. }
      assert (M2' : Mid (fun _ => False) brk (hasbrks l) (gotoss l) s (st_end s2 ca (ENext (Some af)))).
      { apply mid_end; [exact M2|exact Lca|exact Oca|discriminate|discriminate|discriminate|discriminate|right; lia]. }
      assert (F2 : forall E, Fut E s2 (st_end s2 ca (ENext (Some af)))).
      { intros E. apply fut_end; [apply fut_refl; exact (i_lbl s2 (p_inv _ _ _ _ _ _ _ A))|exact Oca|discriminate|discriminate]. }
      assert (P2 : Pre brk af (st_end s2 ca (ENext (Some af)))).
      { eapply pre_mid; [exact P|exact M2'|rewrite n_end; lia|]. destruct (m_keep _ _ _ _ _ _ M2' af Laf (fun x => x)) as [_ [K _]]. rewrite K. exact (q_open _ _ _ P). }
      set (s2' := st_end s2 ca (ENext (Some af))) in *. assert (N2 : g_next s2' = g_next s2) by reflexivity.
      destruct (IH _ _ _ _ G2 P2 NJ2 GT2) as [B [LB TB]]. pose proof (f_next _ _ _ (m_fut _ _ _ _ _ _ B)) as L3. rewrite N2 in L3.
      assert (HB2 : forall x, brkE brk x -> x < g_next s) by exact HB.
      split; [|split].
      + cbn [existsb flat_map snd]. eapply mid_trans; [exact M2'|exact B|exact HB|]. intros b _ [].
      + right. destruct LB as [[LB1 LB2]|[LB1 LB2]].
        * subst s3. change (g_last s2') with (g_last s2). rewrite LI. split; [lia|].
          eapply qf_fut; [apply (F2 noE)|exact Lca|exact (fun x => x)|exact QI].
        * split; [lia|exact LB2].
      + intros E sF FF HE.
        assert (FB : Fut (fun x => brkE brk x \/ E x) s2' sF) by (eapply fut_trans; [exact (m_fut _ _ _ _ _ _ B)|exact FF]).
        assert (F2F : Fut (fun x => brkE brk x \/ E x) s2 sF) by (eapply fut_trans1; [apply F2|exact FB]).
        assert (F1F : Fut (fun x => brkE brk x \/ E x) (addb s) sF).
        { eapply fut_weaken; [|eapply fut_trans; [exact (p_fut _ _ _ _ _ _ _ A)|exact F2F]]. cbn. tauto. }
        assert (HE2 : forall x, brkE brk x \/ E x -> x < g_next s) by (intros x [Hx'|Hx']; auto).
        destruct (fut_end_eq _ _ sF ca FB) as [X1 X2]; [lia|unfold s2'; rewrite e_end_same; discriminate|unfold s2'; rewrite e_end_same; discriminate|].
        unfold s2' in X1, X2. rewrite e_end_same in X1. rewrite i_end in X2.
        apply trcs_cons with (g_next s2) ca.
        * eapply fut_fresh; [exact I|exact F1F|]. intros X. specialize (HE2 _ X). lia.
        * rewrite b_addb_new in TA. rewrite n_addb in TA. apply (TA _ sF F2F). intros x Hx'. specialize (HE2 _ Hx'). lia.
        * unfold full. now rewrite X2, BI.
        * exact X1.
        * rewrite <- N2. apply (TB E sF FF). intros x Hx'. specialize (HE _ Hx'). lia.
  Qed.

  Lemma gflags_ok g Lb brk af cs bs lo hi : trcs g Lb brk af cs bs lo hi -> af < lo -> b_state (g af) = false -> b_end (g af) = ENone ->
    (forallb (fun c => timelesss (snd c)) cs = true -> lquiet g Lb lo hi) ->
    forall fl, gflags g bs = Some fl -> fl = forallb (fun c => timelesss (snd c)) cs.
  Proof.
    intros H. induction H as [|brk af v l cs bs lo m hi a Fr TB Fa Na TC IH]; intros La Sa Ea LQ fl HF.
    - cbn in HF. now injection HF as <-.
    - cbn [gflags] in HF. destruct (stateless fuel g [] [lo]) as [f1|] eqn:S1; [|discriminate]. cbn [obind] in HF.
      destruct (gflags g bs) as [f2|] eqn:S2; [|discriminate]. cbn [obind] in HF. injection HF as <-.
      cbn [forallb snd] in *. destruct (tr_exit g Lb) as [_ [_ [XB XC]]]. destruct (XB _ _ _ _ _ _ _ TB) as [Xb _]. pose proof (XC _ _ _ _ _ _ TC) as Xc.
      destruct (timelesss l) eqn:TL.
      + cbn [andb] in *. destruct (forallb (fun c => timelesss (snd c)) cs) eqn:TC'.
        * assert (E1 : f1 = true).
          { rewrite <- TL. eapply (branch_flag g Lb); [exact TB|lia| |exact (proj1 Fr)|exact Na|exact Sa|exact Ea|exact S1].
            intros _ n x Hn Hx. apply (LQ eq_refl n x Hn). lia. }
          assert (E2 : f2 = true). { apply IH; [lia|exact Sa|exact Ea| |reflexivity]. intros _ n x Hn Hx. apply (LQ eq_refl n x Hn). lia. }
          now rewrite E1, E2.
        * assert (E2 : f2 = false). { apply IH; [lia|exact Sa|exact Ea|discriminate|reflexivity]. } rewrite E2. apply andb_false_r.
      + cbn [andb]. assert (E1 : f1 = false).
        { rewrite <- TL. eapply (branch_flag g Lb); [exact TB|lia| |exact (proj1 Fr)|exact Na|exact Sa|exact Ea|exact S1]. congruence. }
        now rewrite E1.
  Qed.

  Lemma switch_ok e cs : Forall (fun c => Forall stmt_ok (snd c)) cs -> stmt_ok (SSwitch e cs).
  Proof.
    intros FS brk cur s c' s' H P NJ GT. rewrite gather_switch in H.
    destruct (gcases brk (g_next s) cs (addb s)) as [[bs s2]|] eqn:G; [|discriminate]. cbn [obind] in H.
    destruct (gflags _ bs) as [fl|] eqn:GF; [|discriminate]. cbn [obind] in H. apply spair in H. destruct H as [ <- <-].
    cbn [nojump] in NJ. apply andb_true_iff in NJ. destruct NJ as [NQ NJ]. change (incl (flat_map (fun c => gotoss (snd c)) cs) T) in GT.
    pose proof (pre_brk _ _ _ P) as HB. pose proof (q_inv _ _ _ P) as I. pose proof (q_cur _ _ _ P) as Lc.
    assert (M0 : Mid (fun b => b = cur) brk false [] s (addb s)) by (apply mid_add; [eapply mid_refl; exact P|exact HB]).
    assert (P1 : Pre brk (g_next s) (addb s)) by (eapply pre_mid; [exact P|exact M0|rewrite n_addb; lia|now rewrite b_addb_new]).
    destruct (cases_ok (g_next s) cs FS _ _ _ _ G P1 NJ GT) as [A [LA TA]].
    pose proof (f_next _ _ _ (m_fut _ _ _ _ _ _ A)) as L2. rewrite n_addb in L2. pose proof (m_inv _ _ _ _ _ _ A) as I2.
    assert (M2 : Mid (fun b => b = cur) brk (hasbrk (SSwitch e cs)) (gotos (SSwitch e cs)) s s2).
    { change (Mid (fun b => b = cur) brk (false || existsb (fun c => hasbrks (snd c)) cs) ([] ++ flat_map (fun c => gotoss (snd c)) cs) s s2).
      eapply mid_trans; [exact M0|exact A|exact HB|]. intros b _ []. }
    assert (KC : b_ins (g_blk s2 cur) = b_ins (g_blk s cur) /\ b_end (g_blk s2 cur) = ENone).
    { destruct (m_keep _ _ _ _ _ _ A cur) as [K1 [K2 _]]; [rewrite n_addb; lia|exact (fun x => x)|].
      rewrite b_addb in K1, K2 by lia. rewrite K1, K2. split; [reflexivity|exact (q_open _ _ _ P)]. }
    destruct KC as [Ic Oc].
    assert (KA : g_blk (addb s) (g_next s) = blk0) by apply b_addb_new.
    assert (KF : b_ins (g_blk s2 (g_next s)) = [] /\ b_end (g_blk s2 (g_next s)) = ENone /\ b_noskip (g_blk s2 (g_next s)) = false).
    { destruct (m_keep _ _ _ _ _ _ A (g_next s)) as [K1 [K2 K3]]; [rewrite n_addb; lia|exact (fun x => x)|]. rewrite K1, K2, K3, KA. auto. }
    destruct KF as [If [Of Kf]].
    assert (Sf : b_state (g_blk s2 (g_next s)) = false).
    { destruct (b_state (g_blk s2 (g_next s))) eqn:S; [|reflexivity].
      destruct (m_mark _ _ _ _ _ _ A (g_next s) ltac:(rewrite !n_addb; lia) S) as [X|[[X _]|[n [X _]]]].
      + rewrite KA in X. discriminate.
      + specialize (HB _ X). lia.
      + change (In (n, g_next s) (g_lbl s)) in X. pose proof (i_lbl s I n _ X). lia. }
    set (s3 := st_end s2 cur (ESwitch e bs (g_next s))) in *.
    assert (N3 : g_next s3 = g_next s2) by reflexivity.
    assert (M3 : Mid (fun b => b = cur) brk (hasbrk (SSwitch e cs)) (gotos (SSwitch e cs)) s s3).
    { apply mid_end; [exact M2|lia|exact Oc|discriminate|discriminate|discriminate|discriminate|now left]. }
    assert (F3 : forall E s0, Fut E s0 s2 -> Fut E s0 s3).
    { intros E s0 F. apply fut_end; [exact F|exact Oc|discriminate|discriminate]. }
    assert (S3 : forall x, b_state (g_blk s3 x) = b_state (g_blk s2 x)) by (intros x; unfold s3; apply s_end).
    assert (FL : fl = timeless (SSwitch e cs)).
    { change (timeless (SSwitch e cs)) with (forallb (fun c => timelesss (snd c)) cs).
      eapply (gflags_ok (g_blk s3) (LbOf s3)); [apply (TA noE s3); [apply F3; apply fut_refl; exact (i_lbl s2 I2)|intros x []]|rewrite n_addb; lia| | | |exact GF].
      - now rewrite S3.
      - unfold s3. rewrite e_end by lia. exact Of.
      - intros TL n x Hn Hx. rewrite S3. destruct (b_state (g_blk s2 x)) eqn:S; [|reflexivity]. exfalso.
        assert (Hn' : In (n, x) (g_lbl s2)) by (apply assoc_in; exact Hn).
        pose proof (m_newl _ _ _ _ _ _ A n x Hn' ltac:(lia) S) as X. apply GT in X. revert X.
        destruct (lbl_cases (g_next s) cs) with (brk := brk) (s := addb s) (bs := bs) (s' := s2) (n := n) (b := x) as [Y|Y].
        + apply Forall_forall. intros c _. apply lbl_alls.
        + exact G.
        + exact Hn'.
        + change (In (n, x) (g_lbl s)) in Y. pose proof (i_lbl s I n x Y). rewrite n_addb in Hx. lia.
        + apply in_flat_map in Y. destruct Y as [c [Y1 Y2]]. apply (quietl_in (snd c)).
          * rewrite TL in NQ. cbn [negb orb] in NQ. rewrite forallb_forall in NQ. now apply NQ.
          * rewrite forallb_forall in TL. now apply TL.
          * exact Y2. }
    assert (NLf : ~ islbl s3 (g_next s)).
    { intros [n Hn]. change (In (n, g_next s) (g_lbl s2)) in Hn. pose proof (f_lbl _ _ _ (m_fut _ _ _ _ _ _ A) n _ Hn ltac:(rewrite n_addb; lia)) as X.
      change (In (n, g_next s) (g_lbl s)) in X. pose proof (i_lbl s I n _ X). lia. }
    assert (M4 : Mid (fun b => b = cur) brk (hasbrk (SSwitch e cs)) (gotos (SSwitch e cs)) s (st_state s3 (g_next s) (negb fl))).
    { apply mid_stnew; [exact M3|lia|exact NLf|left; rewrite S3; exact Sf|exact HB]. }
    assert (F4 : forall E, Fut (fun x => E x \/ x = g_next s) s2 (st_state s3 (g_next s) (negb fl))).
    { intros E. apply fut_state; [apply F3; apply fut_refl; exact (i_lbl s2 I2)|left; rewrite S3; exact Sf|]. intros _. right; left. now right. }
    set (s4 := st_state s3 (g_next s) (negb fl)) in *.
    assert (N4 : g_next s4 = g_next s2) by reflexivity.
    split.
    - apply post_of_mid; [exact M4|lia|unfold s4; rewrite e_state; unfold s3; rewrite e_end by lia; exact Of|right; lia|].
      change (g_last s4) with (g_last s2). destruct LA as [[LA1 LA2]|[LA1 LA2]]; [left; rewrite LA2; reflexivity|right; right].
      rewrite n_addb in LA1. split; [lia|]. eapply qf_fut; [apply (F4 noE)|lia| |exact LA2]. intros [[]|X]. lia.
    - intros E sF F HE. rewrite N4. assert (I4 : b_ins (g_blk s4 (g_next s)) = []) by (unfold s4; rewrite i_state; unfold s3; rewrite i_end; exact If).
      rewrite I4. cbn [length].
      assert (E4 : b_end (g_blk s4 cur) = ESwitch e bs (g_next s)) by (unfold s4; rewrite e_state; unfold s3; apply e_end_same).
      destruct (fut_end_eq _ _ sF cur F) as [X1 X2]; [lia|congruence|congruence|].
      apply tr_switch with bs.
      + unfold full. rewrite X2. unfold s4. rewrite i_state. unfold s3. rewrite i_end. now rewrite Ic.
      + congruence.
      + rewrite <- (n_addb s). apply (TA (fun x => (E x \/ x = g_next s) \/ E x) sF); [eapply fut_trans; [apply (F4 E)|exact F]|].
        rewrite n_addb. intros x [[X|X]|X]; [specialize (HE _ X)| |specialize (HE _ X)]; lia.
      + rewrite (f_noskip _ _ _ F) by lia. unfold s4. rewrite k_state. unfold s3. rewrite k_end. exact Kf.
      + rewrite <- FL. assert (S4 : b_state (g_blk s4 (g_next s)) = negb fl) by apply s_state_same. destruct (negb fl) eqn:Nf.
        * apply (f_state _ _ _ F); [lia|exact S4].
        * assert (FA4 : Fut (fun x => brkE brk x \/ (noE x \/ x = g_next s)) (addb s) s4) by (eapply fut_trans; [exact (m_fut _ _ _ _ _ _ A)|apply F4]).
          destruct (fut_new_eq _ _ s s4 sF I FA4 F) as [X|X]; [intros X; specialize (HE _ X); lia|exact S4| |exact X].
          exfalso. exact (prom_new _ s s4 I FA4 X).
  Qed.

  (** ** Loops *)
  Lemma mid_inner P P' brk af hb gt s s4 s5 : Mid P brk false [] s s4 -> Mid P' (Some af) hb gt s4 s5 -> g_next s <= af -> ~ islbl s4 af ->
    (forall t, brk = Some t -> t < g_next s) -> (forall b, b < g_next s -> P' b -> P b) -> Mid P brk false gt s s5.
  Proof.
    intros A B La NL HB HP. pose proof (f_next _ _ _ (m_fut _ _ _ _ _ _ A)) as LA. pose proof (f_next _ _ _ (m_fut _ _ _ _ _ _ B)) as LB.
    constructor.
    - eapply fut_weaken; [|eapply fut_trans; [exact (m_fut _ _ _ _ _ _ A)|exact (m_fut _ _ _ _ _ _ B)]]. cbn. intros x Lx [X|X]; [exact X|]. injection X as ->. lia.
    - intros b L NP. destruct (m_keep _ _ _ _ _ _ A b L NP) as [A1 [A2 A3]].
      destruct (m_keep _ _ _ _ _ _ B b ltac:(lia)) as [B1 [B2 B3]]; [intros H; apply NP; now apply HP|].
      split; [congruence|split; congruence].
    - exact (m_inv _ _ _ _ _ _ B).
    - exact (m_inj _ _ _ _ _ _ B).
    - exact (m_disj _ _ _ _ _ _ B).
    - exact (m_fnd _ _ _ _ _ _ B).
    - exact (m_unres _ _ _ _ _ _ B).
    - intros b L S. destruct (m_mark _ _ _ _ _ _ B b ltac:(lia) S) as [H|[[H1 H2]|[n [H1 H2]]]].
      + destruct (m_mark _ _ _ _ _ _ A b L H) as [?|[[H1 H2]|[n [H1 []]]]]; [now left|discriminate].
      + injection H1 as ->. lia.
      + right; right. exists n. split; [|exact H2]. now apply (f_lbl _ _ _ (m_fut _ _ _ _ _ _ A)).
    - discriminate.
    - intros n b I L S. destruct (le_lt_dec (g_next s4) b).
      + eapply (m_newl _ _ _ _ _ _ B); eassumption.
      + pose proof (f_lbl _ _ _ (m_fut _ _ _ _ _ _ B) n b I ltac:(lia)) as I1.
        destruct (m_mark _ _ _ _ _ _ B b ltac:(lia) S) as [H|[[H1 H2]|[m [H1 H2]]]].
        * destruct (m_newl _ _ _ _ _ _ A n b I1 L H).
        * injection H1 as ->. exfalso. apply NL. now exists n.
        * now rewrite (m_inj _ _ _ _ _ _ A n m b I1 H1).
    - intros n b I. destruct (m_fwd _ _ _ _ _ _ B n b I) as [H|H]; [|now right].
      destruct (m_fwd _ _ _ _ _ _ A n b H) as [?|[]]; now left.
  Qed.

  Lemma while_ok e l : Forall stmt_ok l -> stmt_ok (SWhile e l).
  Proof.
    intros FS brk cur s c' s' H P NJ GT. rewrite gather_while in H. unfold st_next in H.
    destruct (gblock (Some (S (S (g_next s)))) l (S (g_next s)) (addb (addb (st_end (addb s) cur (ENext (Some (g_next s))))))) as [[il s5]|] eqn:G; [|discriminate].
    cbn [obind] in H. apply spair in H. destruct H as [ <- <-].
    change (nojumps T l = true) in NJ. change (incl (gotoss l) T) in GT.
    pose proof (pre_brk _ _ _ P) as HB. pose proof (q_inv _ _ _ P) as I. pose proof (q_cur _ _ _ P) as Lc. pose proof (q_open _ _ _ P) as Oc.
    set (n := g_next s) in *.
    assert (M2 : Mid (fun b => b = cur) brk false [] s (st_end (addb s) cur (ENext (Some n)))).
    { apply mid_end; [apply mid_add; [eapply mid_refl; exact P|exact HB]|rewrite n_addb; fold n; lia|rewrite b_addb by (fold n; lia); exact Oc|
        discriminate|discriminate|discriminate|discriminate|now left]. }
    assert (F2 : forall E, Fut E (addb s) (st_end (addb s) cur (ENext (Some n)))).
    { intros E. apply fut_end; [apply fut_refl; exact (i_lbl _ (inv_add s I))|rewrite b_addb by (fold n; lia); exact Oc|discriminate|discriminate]. }
    assert (E2c : b_end (g_blk (st_end (addb s) cur (ENext (Some n))) cur) = ENext (Some n)) by apply e_end_same.
    assert (I2c : b_ins (g_blk (st_end (addb s) cur (ENext (Some n))) cur) = b_ins (g_blk s cur)) by (rewrite i_end, b_addb by (fold n; lia); reflexivity).
    assert (B2n : g_blk (st_end (addb s) cur (ENext (Some n))) n = blk0) by (rewrite e_end by lia; unfold n; apply b_addb_new).
    assert (N2 : g_next (st_end (addb s) cur (ENext (Some n))) = S n) by reflexivity.
    assert (L2 : g_lbl (st_end (addb s) cur (ENext (Some n))) = g_lbl s) by reflexivity.
    set (s2 := st_end (addb s) cur (ENext (Some n))) in *.
    pose proof (m_inv _ _ _ _ _ _ M2) as I2.
    assert (M4 : Mid (fun b => b = cur) brk false [] s (addb (addb s2))) by (apply mid_add; [apply mid_add; [exact M2|exact HB]|exact HB]).
    set (s3 := addb s2) in *. set (s4 := addb s3) in *.
    assert (N3 : g_next s3 = S (S n)) by reflexivity. assert (N4 : g_next s4 = S (S (S n))) by reflexivity.
    assert (B4it : g_blk s4 (S n) = blk0) by (unfold s4; rewrite b_addb by lia; unfold s3; rewrite <- N2; apply b_addb_new).
    assert (B4af : g_blk s4 (S (S n)) = blk0) by (unfold s4; rewrite <- N3; apply b_addb_new).
    assert (B4n : g_blk s4 n = blk0) by (unfold s4; rewrite b_addb by lia; unfold s3; rewrite b_addb by lia; exact B2n).
    assert (B4c : g_blk s4 cur = g_blk s2 cur) by (unfold s4; rewrite b_addb by lia; unfold s3; rewrite b_addb by lia; reflexivity).
    assert (NL4 : forall x, n <= x -> ~ islbl s4 x) by (intros x Lx [k Hk]; change (In (k, x) (g_lbl s)) in Hk; pose proof (i_lbl s I k _ Hk); fold n in H; lia).
    pose proof (m_inv _ _ _ _ _ _ M4) as I4. pose proof (inv_add s2 I2) as I3. change (Inv s3) in I3.
    assert (P4 : Pre (Some (S (S n))) (S n) s4).
    { constructor; [exact I4|exact (m_inj _ _ _ _ _ _ M4)|exact (m_disj _ _ _ _ _ _ M4)|exact (m_fnd _ _ _ _ _ _ M4)|exact (m_unres _ _ _ _ _ _ M4)|lia|now rewrite B4it|].
      intros t [= <-]. split; [lia|apply NL4; lia]. }
    destruct (block_from l (list_from l FS) _ _ _ _ _ G P4 NJ GT) as [A [BI [WI [LI [QI TA]]]]].
    pose proof (f_next _ _ _ (p_fut _ _ _ _ _ _ _ A)) as L5. rewrite N4 in L5, WI, TA. pose proof (p_cur _ _ _ _ _ _ _ A) as Lil.
    pose proof (p_open _ _ _ _ _ _ _ A) as Oil. pose proof (p_inv _ _ _ _ _ _ _ A) as I5.
    assert (M5 : Mid (fun b => b = cur) brk false (gotoss l) s s5).
    { eapply mid_inner; [exact M4|eapply mid_of_post; exact A|fold n; lia|apply NL4; lia|exact HB|]. cbn. fold n. intros b Lb ->. lia. }
    assert (K5 : forall x, x < S (S (S n)) -> x <> S n -> b_ins (g_blk s5 x) = b_ins (g_blk s4 x) /\ b_end (g_blk s5 x) = b_end (g_blk s4 x) /\
       b_noskip (g_blk s5 x) = b_noskip (g_blk s4 x)).
    { intros x Lx Nx. apply (p_keep _ _ _ _ _ _ _ A); [lia|exact Nx]. }
    destruct (K5 n ltac:(lia) ltac:(lia)) as [K5n1 [K5n2 K5n3]]. rewrite B4n in K5n1, K5n2, K5n3.
    destruct (K5 (S (S n)) ltac:(lia) ltac:(lia)) as [K5a1 [K5a2 K5a3]]. rewrite B4af in K5a1, K5a2, K5a3.
    destruct (K5 cur ltac:(lia) ltac:(lia)) as [K5c1 [K5c2 K5c3]]. rewrite B4c in K5c1, K5c2, K5c3.
    set (s6 := st_end (st_last s5 (S (S n))) il (ENext (Some n))) in *.
    assert (M6 : Mid (fun b => b = cur) brk false (gotoss l) s s6).
    { apply mid_end; [apply mid_last; exact M5|exact Lil|exact Oil|discriminate|discriminate|discriminate|discriminate|right; fold n; lia]. }
    assert (O6 : b_end (g_blk s6 n) = ENone) by (unfold s6; rewrite e_end by lia; rewrite b_last; exact K5n2).
    set (s7 := st_end s6 n (EWhile e (S n) (S (S n)))) in *.
    assert (N7 : g_next s7 = g_next s5) by reflexivity.
    assert (M7 : Mid (fun b => b = cur) brk false (gotoss l) s s7).
    { apply mid_end; [exact M6|unfold s6; rewrite n_end, n_last; lia|exact O6|discriminate|discriminate|discriminate|discriminate|right; fold n; lia]. }
    assert (NL7 : ~ islbl s7 n).
    { intros [k Hk]. change (In (k, n) (g_lbl s5)) in Hk. pose proof (f_lbl _ _ _ (p_fut _ _ _ _ _ _ _ A) k _ Hk ltac:(lia)) as X. apply (NL4 n (le_n n)). now exists k. }
    assert (M8 : Mid (fun b => b = cur) brk false (gotoss l) s (st_state s7 n true)).
    { apply mid_stnew; [exact M7|fold n; lia|exact NL7|now right|exact HB]. }
    assert (F8 : Fut (fun x => x = n) s5 (st_state s7 n true)).
    { apply fut_state; [|now right|intros _; right; now left].
      apply fut_end; [apply fut_end; [apply fut_last; apply fut_refl; exact (i_lbl s5 I5)|rewrite b_last; exact Oil|discriminate|discriminate]|exact O6|discriminate|discriminate]. }
    set (s8 := st_state s7 n true) in *.
    assert (N8 : g_next s8 = g_next s5) by reflexivity.
    assert (E8 : forall x, b_end (g_blk s8 x) = b_end (g_blk s7 x)) by (intros x; unfold s8; apply e_state).
    assert (I8 : forall x, b_ins (g_blk s8 x) = b_ins (g_blk s5 x)) by (intros x; unfold s8; rewrite i_state; unfold s7; rewrite i_end; unfold s6; rewrite i_end; now rewrite b_last).
    assert (K8 : forall x, b_noskip (g_blk s8 x) = b_noskip (g_blk s5 x)) by (intros x; unfold s8; rewrite k_state; unfold s7; rewrite k_end; unfold s6; rewrite k_end; now rewrite b_last).
    split.
    - apply post_of_mid; [exact M8|lia| |right; fold n; lia|left; reflexivity].
      rewrite E8. unfold s7. rewrite e_end by lia. unfold s6. rewrite e_end by lia. rewrite b_last. exact K5a2.
    - intros E sF F HE. rewrite N8.
      assert (I8a : b_ins (g_blk s8 (S (S n))) = []) by (rewrite I8; exact K5a1). rewrite I8a. cbn [length].
      assert (E8c : b_end (g_blk s8 cur) = ENext (Some n)).
      { rewrite E8. unfold s7. rewrite e_end by lia. unfold s6. rewrite e_end by lia. rewrite b_last, K5c2. exact E2c. }
      assert (E8n : b_end (g_blk s8 n) = EWhile e (S n) (S (S n))) by (rewrite E8; apply e_end_same).
      assert (E8i : b_end (g_blk s8 il) = ENext (Some n)) by (rewrite E8; unfold s7; rewrite e_end by lia; apply e_end_same).
      destruct (fut_end_eq _ _ sF cur F) as [X1 X2]; [lia|congruence|congruence|].
      destruct (fut_end_eq _ _ sF n F) as [Y1 Y2]; [lia|congruence|congruence|].
      destruct (fut_end_eq _ _ sF il F) as [Z1 Z2]; [lia|congruence|congruence|].
      rewrite I8 in X2, Y2, Z2.
      set (E' := fun x => brkE (Some (S (S n))) x \/ (x = n \/ E x)).
      assert (F5F : Fut (fun x => x = n \/ E x) s5 sF) by (eapply fut_trans; [exact F8|exact F]).
      assert (F4F : Fut E' s4 sF) by (eapply fut_trans; [exact (p_fut _ _ _ _ _ _ _ A)|exact F5F]).
      assert (F3F : Fut E' s3 sF) by (eapply fut_trans1; [|exact F4F]; apply fut_add; [exact I3|apply fut_refl; exact (i_lbl s3 I3)]).
      assert (F48 : Fut (fun x => brkE (Some (S (S n))) x \/ x = n) s4 s8) by (eapply fut_trans; [exact (p_fut _ _ _ _ _ _ _ A)|exact F8]).
      apply tr_while with il.
      + unfold full. now rewrite X2, K5c1, I2c.
      + unfold nexts. congruence.
      + apply (f_state _ _ _ F); [lia|]. apply s_state_same.
      + rewrite (f_noskip _ _ _ F) by lia. rewrite K8. exact K5n3.
      + unfold full. now rewrite Y2, K5n1.
      + congruence.
      + rewrite <- N2. eapply fut_fresh; [exact I2|exact F3F|]. rewrite N2. unfold E', brkE. intros [X|[X|X]]; [injection X; lia|lia|specialize (HE _ X); lia].
      + rewrite (f_noskip _ _ _ F) by lia. rewrite K8. exact K5a3.
      + assert (S8 : b_state (g_blk s8 (S (S n))) = hasbrks l).
        { unfold s8. rewrite s_state by lia. unfold s7. rewrite s_end. unfold s6. rewrite s_end, b_last.
          destruct (hasbrks l) eqn:HBk; [apply (p_brk _ _ _ _ _ _ _ A); reflexivity|].
          destruct (b_state (g_blk s5 (S (S n)))) eqn:SS; [|reflexivity].
          destruct (p_mark _ _ _ _ _ _ _ A (S (S n)) ltac:(lia) SS) as [X|[[_ X]|[k [X _]]]]; [rewrite B4af in X; discriminate|discriminate|].
          exfalso. apply (NL4 (S (S n))); [lia|]. now exists k. }
        destruct (hasbrks l) eqn:HBk; [apply (f_state _ _ _ F); [lia|exact S8]|].
        assert (EQ : S (S n) = g_next s3) by (symmetry; exact N3).
        destruct (fut_new_eq _ _ s3 s8 sF I3 F48 F) as [X|X]; [rewrite N3; intros X; specialize (HE _ X); lia|rewrite N3; exact S8| |rewrite N3 in X; exact X].
        exfalso. exact (prom_new _ s3 s8 I3 F48 X).
      + rewrite B4it in TA. apply (TA (fun x => x = n \/ E x) sF F5F). intros x [ ->|X]; [lia|specialize (HE _ X); lia].
      + unfold full. now rewrite Z2, BI.
      + unfold nexts. congruence.
  Qed.

  Theorem gather_ok st : stmt_ok st.
  Proof.
    induction st using stmt_ind'.
    - apply assign_ok.
    - apply block_stmt_ok. apply block_from. now apply list_from.
    - now apply if_ok.
    - now apply ifelse_ok.
    - now apply switch_ok.
    - now apply while_ok.
    - apply break_ok.
    - apply step_ok.
    - apply label_ok.
    - apply goto_ok.
    - apply return_ok.
    - apply join_ok_.
  Qed.
  Theorem gather_list_ok l : list_ok l.
  Proof. apply list_from. apply Forall_forall. intros x _. apply gather_ok. Qed.
End Gather.
