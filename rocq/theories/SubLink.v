(** Ids of the calls, return states and the machines made from programs with subroutines. *)
From Coq Require Import List Bool Arith ZArith Lia.
Import ListNotations.
From Verif Require Import FsmModel FsmEmit FsmLayout FsmGather FsmRenum FsmRun FsmSkip FsmStates FsmArms SubModel SubProofs SubGather.

Section An.
  Variables (g : graph) (sub : nat -> option nat).
  Definition is_call (b : nat) : Prop := exists c sv i go rt, b_end (g b) = ECall c sv i go rt.
  Record K (k : calls) (dn : list nat) : Prop := {
    kk_lt : forall b, In b dn -> is_call b -> (k_id k b < k_next k)%Z;
    kk_inj : forall b b', In b dn -> In b' dn -> is_call b -> is_call b' -> k_id k b = k_id k b' -> b = b';
    kk_ret : forall t cid rt, In (cid, rt) (k_ret k t) <-> exists b c sv i go, In b dn /\ b_end (g b) = ECall c sv i go rt /\ sub go = Some t /\ cid = k_id k b;
    kk_nd : forall t, NoDup (map fst (k_ret k t))
  }.
  Lemma K_skip k dn b : K k dn -> ~ is_call b -> K k (dn ++ [b]).
  Proof.
    intros [A1 A2 A3 A4] N.
    assert (D : forall x, In x (dn ++ [b]) -> is_call x -> In x dn).
    { intros x Hx Cx. apply in_app_or in Hx. destruct Hx as [Hx|[ <-|[]]]; [exact Hx|contradiction]. }
    constructor.
    - intros x Hx Cx. apply A1; auto.
    - intros x y Hx Hy Cx Cy. apply A2; auto.
    - intros t cid rt. rewrite A3. split; intros [x [c [sv [i [go [H1 [H2 H3]]]]]]]; exists x, c, sv, i, go; split; auto.
      + apply in_or_app. now left.
      + apply D; [exact H1|]. now exists c, sv, i, go, rt.
    - exact A4.
  Qed.
  Lemma nodup_snoc {A} (l : list A) x : NoDup l -> ~ In x l -> NoDup (l ++ [x]).
  Proof.
    induction 1 as [|y l N D IH]; intros H; cbn; [constructor; [intros []|constructor]|]. constructor.
    - intros X. apply in_app_or in X. destruct X as [X|[ ->|[]]]; [now apply N|]. apply H. now left.
    - apply IH. intros X. apply H. now right.
  Qed.
  Lemma analyze_ok : forall bs k dn, K k dn -> NoDup (dn ++ bs) -> K (analyze g sub bs k) (dn ++ bs).
  Proof.
    induction bs as [|b bs IH]; intros k dn H ND; cbn [analyze]; [now rewrite app_nil_r|].
    assert (Nb : ~ In b dn) by (intros X; apply (NoDup_remove_2 _ _ _ ND); apply in_or_app; now left).
    assert (E : dn ++ b :: bs = (dn ++ [b]) ++ bs) by (rewrite <- app_assoc; reflexivity). rewrite E in *.
    destruct (b_end (g b)) as [|o|e ib fi it eb fe et af|e cs af|e it af|e w n|c sv cid go rt|c rets] eqn:Eb;
      try (apply IH; [|exact ND]; apply K_skip; [exact H|]; intros [c0 [sv0 [i0 [go0 [rt0 X]]]]]; congruence).
    apply IH; [|exact ND]. destruct H as [A1 A2 A3 A4].
    assert (FO : forall x, In x dn -> fset (k_id k) b (k_next k) x = k_id k x) by (intros x Hx; apply fset_other; intros ->; contradiction).
    constructor; cbn [k_id k_next k_ret].
    - intros x Hx Cx. apply in_app_or in Hx. destruct Hx as [Hx|[ <-|[]]]; [rewrite FO by assumption; specialize (A1 x Hx Cx); lia|]. rewrite fset_same. lia.
    - intros x y Hx Hy Cx Cy. apply in_app_or in Hx. apply in_app_or in Hy. destruct Hx as [Hx|[ <-|[]]]; destruct Hy as [Hy|[ <-|[]]].
      + rewrite !FO by assumption. now apply A2.
      + rewrite FO by assumption. rewrite fset_same. specialize (A1 x Hx Cx). lia.
      + rewrite fset_same. rewrite FO by assumption. specialize (A1 y Hy Cy). lia.
      + reflexivity.
    - intros t cid' rt'.
      assert (R : In (cid', rt') ((match sub go with Some t0 => fset (k_ret k) t0 (k_ret k t0 ++ [(k_next k, rt)]) | None => k_ret k end) t) <->
                  In (cid', rt') (k_ret k t) \/ (sub go = Some t /\ cid' = k_next k /\ rt' = rt)).
      { destruct (sub go) as [t0|]; [|split; [now left|intros [X|[X _]]; [exact X|discriminate]]]. unfold fset. destruct (Nat.eqb_spec t t0) as [ ->|N].
        - rewrite in_app_iff. cbn. split; [intros [X|[[= <- <-]|[]]]; auto|intros [X|[_ [-> ->]]]; auto].
        - split; [now left|intros [X|[[= X] _]]; [exact X|congruence]]. }
      rewrite R, A3. split.
      + intros [[x [c0 [sv0 [i [go0 [H1 [H2 [H3 H4]]]]]]]]|[H1 [-> ->]]].
        * exists x, c0, sv0, i, go0. split; [apply in_or_app; now left|]. split; [exact H2|]. split; [exact H3|]. now rewrite FO.
        * exists b, c, sv, cid, go. split; [apply in_or_app; right; now left|]. split; [exact Eb|]. split; [exact H1|]. now rewrite fset_same.
      + intros [x [c0 [sv0 [i [go0 [H1 [H2 [H3 H4]]]]]]]]. apply in_app_or in H1. destruct H1 as [H1|[ <-|[]]].
        * left. exists x, c0, sv0, i, go0. split; [exact H1|]. split; [exact H2|]. split; [exact H3|]. now rewrite FO in H4.
        * right. rewrite Eb in H2. injection H2 as <- <- <- <- <-. rewrite fset_same in H4. auto.
    - intros t. destruct (sub go) as [t0|]; [|apply A4]. unfold fset. destruct (Nat.eqb_spec t t0) as [ ->|N]; [|apply A4].
      rewrite map_app. cbn. apply nodup_snoc; [apply A4|]. intros X. apply in_map_iff in X. destruct X as [[cid' rt'] [X1 X2]]. cbn in X1. subst cid'.
      apply A3 in X2. destruct X2 as [x [c0 [sv0 [i [go0 [H1 [H2 [_ H4]]]]]]]]. assert (Cx : is_call x) by (now exists c0, sv0, i, go0, rt'). specialize (A1 x H1 Cx). lia.
  Qed.
  Lemma K0 : K k0 [].
  Proof.
    constructor; [intros b []|intros b b' []| |intros t; cbn; constructor]. intros t cid rt. cbn. split; [intros []|]. intros [b [c [sv [i [go [[] _]]]]]].
  Qed.
  Lemma analyze_all n : K (analyze g sub (seq 0 n) k0) (seq 0 n).
  Proof. change (seq 0 n) with ([] ++ seq 0 n) at 2. apply analyze_ok; [exact K0|apply seq_NoDup]. Qed.
End An.

(** * Programs *)
Theorem setup_ok caller save rank fuel p s sub : csetup caller save fuel p = Some (s, sub) -> fairs caller save rank false None p ->
  Subs caller save (g_blk s) sub rank /\ sub 0 = None.
Proof.
  unfold csetup. intros H F. apply obind_some in H. destruct H as [[c t] [H1 H]]. injection H as <- <-.
  destruct (cgather_list_ok caller save rank fuel p c t H1 F) as [I S0]. split; [|exact S0].
  set (G := g_blk (c_g t)). set (k := analyze G (c_sub t) (seq 0 (g_next (c_g t))) k0). pose proof (analyze_all G (c_sub t) (g_next (c_g t))) as KK. fold k in KK.
  assert (IN : forall b, is_call G b -> In b (seq 0 (g_next (c_g t)))).
  { intros b [c0 [sv [i [go [rt E]]]]]. apply in_seq. destruct (le_lt_dec (g_next (c_g t)) b) as [L|L]; [|lia]. destruct (ci_out _ _ _ _ I b L) as [X _]. unfold G in E. congruence. }
  assert (LE : forall b, b_end (link save (c_sub t) k G b) = match b_end (G b) with
                | ECall c sv _ go rt => ECall c sv (k_id k b) go rt
                | ERet c _ => ERet c (map (fun r => (fst r, snd r, option_map save (c_sub t (snd r)))) (match c_sub t b with Some t => k_ret k t | None => [] end))
                | e => e end) by reflexivity.
  assert (CL : forall b c sv cid go rt, b_end (link save (c_sub t) k G b) = ECall c sv cid go rt -> exists i, b_end (G b) = ECall c sv i go rt /\ cid = k_id k b).
  { intros b c0 sv cid go rt. rewrite LE. destruct (b_end (G b)) as [| | | | | |c1 sv1 i go1 rt1|]; try discriminate. intros [= <- <- <- <- <-]. now exists i. }
  cbn [g_blk upd_blk]. constructor.
  - intros b x Hx. destruct (ci_b _ _ _ _ I b) as [J1 _]. apply J1. rewrite LE in Hx. fold G. destruct (b_end (G b)); exact Hx.
  - intros b c0 sv cid go rt E. apply CL in E. destruct E as [i [E ->]]. destruct (ci_b _ _ _ _ I b) as [_ [_ [_ J4]]]. fold G in J4. rewrite E in J4. tauto.
  - intros b c0 rets E. rewrite LE in E. destruct (ci_b _ _ _ _ I b) as [_ [_ [_ J4]]]. fold G in J4. destruct (b_end (G b)) as [| | | | | | |c1 r1] eqn:Eb; try discriminate. injection E as <- <-.
    destruct J4 as [J4 J5]. split; [exact J4|]. destruct (c_sub t b) as [u|] eqn:Sb; [|congruence]. exists u. split; [reflexivity|]. split.
    + rewrite map_map. cbn. exact (kk_nd _ _ _ _ KK u).
    + intros cid rt sv. rewrite in_map_iff. split.
      * intros [[cid' rt'] [[= <- <- <-] X]]. cbn. split; [reflexivity|]. apply (kk_ret _ _ _ _ KK) in X. destruct X as [b' [c' [sv' [i [go [X1 [X2 [X3 ->]]]]]]]].
        exists b', c', sv', go. split; [|exact X3]. rewrite X2. reflexivity.
      * intros [ -> [b' [c' [sv' [go [X1 X2]]]]]]. apply CL in X1. destruct X1 as [i [X1 ->]]. exists (k_id k b', rt). split; [reflexivity|]. apply (kk_ret _ _ _ _ KK).
        exists b', c', sv', i, go. split; [apply IN; now exists c', sv', i, go, rt|auto].
  - intros b b' c0 c' sv sv' cid go go' rt rt' E E'. apply CL in E. apply CL in E'. destruct E as [i [E ->]]. destruct E' as [i' [E' X]].
    assert (C1 : is_call G b) by (now exists c0, sv, i, go, rt). assert (C2 : is_call G b') by (now exists c', sv', i', go', rt'). exact (kk_inj _ _ _ _ KK b b' (IN _ C1) (IN _ C2) C1 C2 X).
  - intros b x e Hx. destruct (ci_b _ _ _ _ I b) as [_ [_ [J3 _]]]. now apply J3.
  - intros b e y He. destruct (ci_b _ _ _ _ I b) as [_ [J2 _]]. apply J2. rewrite LE in He. fold G. destruct (b_end (G b)); exact He.
Qed.

(** Marking blocks as states changes nothing else. *)
Lemma prevent_ends r unr : forall bs g ch g' ch', prevent r unr bs g ch = Some (g', ch') ->
  (forall b, b_end (g' b) = b_end (g b) /\ b_ins (g' b) = b_ins (g b) /\ b_noskip (g' b) = b_noskip (g b)) /\ (forall b, b_state (g b) = true -> b_state (g' b) = true) /\
  (ch' = false -> ch = false /\ forall b, b_state (g' b) = b_state (g b)).
Proof.
  induction bs as [|b bs IH]; intros g ch g' ch' H; cbn [prevent] in H; [injection H as <- <-; auto|].
  destruct (unr b); [now apply IH|]. destruct (b_end (g b)) as [| |e ib fi it eb fe et af| | | | |]; try now apply IH.
  destruct (b_state (g af)) eqn:Sa; [now apply IH|]. destruct (_ || _) in H; [discriminate|].
  destruct (IH _ _ _ _ H) as [I1 [I2 I3]]. split; [|split].
  - intros x. destruct (I1 x) as [-> [-> ->]]. unfold set_state, gset. destruct (Nat.eqb_spec x af) as [ ->|_]; auto.
  - intros x Hx. apply I2. unfold set_state, gset. destruct (Nat.eqb_spec x af) as [ ->|_]; [congruence|exact Hx].
  - intros Hc. destruct (I3 Hc) as [J1 J2]. apply orb_false_iff in J1. destruct J1 as [J1 J1']. split; [exact J1|]. intros x. rewrite J2. rewrite J1'.
    unfold set_state, gset. destruct (Nat.eqb_spec x af) as [ ->|_]; [now rewrite Sa|reflexivity].
Qed.
Lemma generate_ends fuel s g r : generate_states fuel s = Some (g, r) ->
  (forall b, b_end (g b) = b_end (g_blk s b) /\ b_ins (g b) = b_ins (g_blk s b) /\ b_noskip (g b) = b_noskip (g_blk s b)).
Proof.
  unfold generate_states. intros H. apply obind_some in H. destruct H as [r1 [H1 H]]. apply obind_some in H. destruct H as [[g2 ch] [H2 H]].
  destruct (prevent_ends _ _ _ _ _ _ _ H2) as [E _]. destruct ch; [apply obind_some in H; destruct H as [r2 [_ H]]|]; injection H as <- <-; exact E.
Qed.
Lemma subs_ext caller save g g' sub rank : Subs caller save g sub rank -> (forall b, b_end (g' b) = b_end (g b) /\ b_ins (g' b) = b_ins (g b) /\ b_noskip (g' b) = b_noskip (g b)) ->
  Subs caller save g' sub rank.
Proof.
  intros [A1 A2 A3 A4 A5 A6] E. assert (E1 : forall b, b_end (g' b) = b_end (g b)) by apply E. assert (E2 : forall b, b_ins (g' b) = b_ins (g b)) by apply E. constructor.
  - intros b x. rewrite E1. apply A1.
  - intros b c sv cid go rt. rewrite E1. apply A2.
  - intros b c rets. rewrite E1. intros H. destruct (A3 _ _ _ H) as [H1 [t [H2 [H3 H4]]]]. split; [exact H1|]. exists t. split; [exact H2|]. split; [exact H3|].
    intros cid rt sv. rewrite H4. split; intros [X [b' [c' [sv' [go [Y1 Y2]]]]]]; (split; [exact X|]); exists b', c', sv', go; rewrite E1 in *; auto.
  - intros b b' c c' sv sv' cid go go' rt rt'. rewrite !E1. apply A4.
  - intros b x e. rewrite E2. apply A5.
  - intros b e y. rewrite E1. apply A6.
Qed.

(** * Machines *)
Lemma ff_skips g b : forall f l cur y, ff_loop f g l cur = Some y -> skips g b l -> skips g b cur -> skips g b y.
Proof.
  induction f as [|f IH]; intros l cur y H Hl Hc; cbn [ff_loop] in H; [discriminate|]. destruct (block_empty (g cur)) eqn:B; cbn [negb] in H; [|now injection H as <-].
  apply empty_ins in B. destruct (b_end (g cur)) as [|[n|]| | | | | |] eqn:E; try (now injection H as <-); [|discriminate].
  destruct (b_noskip (g n)) eqn:N; [now injection H as <-|]. assert (Hn : skips g b n) by (eapply skips_snoc; eassumption).
  apply (IH _ _ _ H); [destruct (b_state (g n)); assumption|exact Hn].
Qed.
Lemma jump_skips fuel g r last x i : Jmp fuel g r last x i -> i <> 0 -> exists y, r_sid r y = Some i /\ skips g x y.
Proof.
  unfold Jmp, ff_index. intros H N. apply obind_some in H. destruct H as [y [F H]]. exists y. destruct (_ && _) in H; [congruence|]. split; [exact H|].
  unfold fast_forward in F. destruct (b_noskip (g x)); [injection F as <-; constructor|]. eapply ff_skips; [exact F|constructor|constructor].
Qed.

(** Programs made of instructions, steps, calls and returns. *)
Fixpoint line (st : cst) : bool :=
  match st with
  | CAssign _ _ | CStep | CCall _ _ _ | CReturn | CFwd _ => true
  | CBlock l | CSub _ l => forallb line l
  | _ => false
  end.
Definition lined (s : cgst) : Prop := forall b, after_of (b_end (g_blk (c_g s) b)) = None.
Lemma lined_add l s : lined s -> lined (snd (add_in l s)).
Proof. intros H b. cbn. unfold gset. destruct (Nat.eqb b _); [reflexivity|apply H]. Qed.
Lemma lined_end s b e : lined s -> after_of e = None -> lined (c_end s b e).
Proof. intros H E x. unfold c_end, with_g. cbn [c_g]. destruct (Nat.eq_dec x b) as [ ->|N]; [now rewrite e_end_same|]. rewrite e_end by assumption. apply H. Qed.
Lemma lined_state s b v : lined s -> lined (c_state s b v).
Proof. intros H x. unfold c_state, with_g. cbn [c_g]. rewrite e_state. apply H. Qed.
Lemma lined_ins s b l : lined s -> lined (c_ins s b l).
Proof. intros H x. unfold c_ins, with_g. cbn [c_g]. rewrite e_ins. apply H. Qed.
Lemma lined_list caller save fuel l : Forall (fun st => forall brk cur s c s', line st = true -> cgather caller save fuel brk st cur s = Some (c, s') -> lined s -> lined s') l ->
  forall brk cur s c s', forallb line l = true -> cgather_list caller save fuel brk l cur s = Some (c, s') -> lined s -> lined s'.
Proof.
  induction 1 as [|x l Hx _ IH]; intros brk cur s c s' L H Hs; [now injection H as <- <-|]. rewrite cg_list in H. apply obind_some in H. destruct H as [[c1 s1] [H1 H]].
  cbn in L. apply andb_true_iff in L. destruct L as [L1 L2]. eapply IH; [exact L2|exact H|]. eapply Hx; eassumption.
Qed.
Lemma lined_ok caller save fuel st : forall brk cur s c s', line st = true -> cgather caller save fuel brk st cur s = Some (c, s') -> lined s -> lined s'.
Proof.
  induction st as [x e|p IH|e p IH|e p1 p2 IH1 IH2|e cs IH|e p IH| | |n ins outs| |n p IH|n] using cst_ind2; intros brk cur s c s' L H Hs; try discriminate L.
  - injection H as <- <-. now apply lined_ins.
  - change (cgblock caller save fuel brk p cur s = Some (c, s')) in H. unfold cgblock in H. destruct (c_add cur s) as [nb s1] eqn:A1. apply obind_some in H. destruct H as [[a s3] [H2 H]].
    destruct (c_add cur s3) as [nx s4] eqn:A2. injection H as <- <-. apply lined_end; [|reflexivity]. unfold c_add in *.
    assert (X : s4 = snd (add_in (c_sub s3 cur) s3)) by (now rewrite A2). subst s4. apply lined_add.
    eapply (lined_list caller save fuel p IH); [exact L|exact H2|]. apply lined_end; [|reflexivity].
    assert (X : s1 = snd (add_in (c_sub s cur) s)) by (now rewrite A1). subst s1. now apply lined_add.
  - rewrite cg_step in H. destruct (c_add cur s) as [b s1] eqn:A1. injection H as <- <-. apply lined_end; [|reflexivity]. unfold c_add in A1.
    assert (X : s1 = snd (add_in (c_sub s cur) s)) by (now rewrite A1). subst s1. intros x. unfold with_g. cbn [c_g].
    change (upd_blk (c_g (snd (add_in (c_sub s cur) s))) (set_noskip (set_state (g_blk (c_g (snd (add_in (c_sub s cur) s)))) b true) b))
      with (upd_blk (st_state (c_g (snd (add_in (c_sub s cur) s))) b true) (set_noskip (g_blk (st_state (c_g (snd (add_in (c_sub s cur) s))) b true)) b)).
    rewrite e_nsk, e_state. now apply lined_add.
  - cbn [cgather] in H. destruct (cfind n s) as [[top pr]|]; [|discriminate]. destruct (c_add cur (c_ins s cur (assign_all ins))) as [af s1] eqn:A1. injection H as <- <-.
    apply lined_ins. apply lined_end; [|reflexivity]. apply lined_state. unfold c_add in A1.
    match type of A1 with add_in ?l ?t = _ => assert (X : s1 = snd (add_in l t)) by (now rewrite A1) end. subst s1. apply lined_add. now apply lined_ins.
  - cbn [cgather] in H. destruct (c_sub s cur); [|injection H as <- <-; now apply lined_ins].
    destruct (c_add cur (c_end s cur (ERet caller []))) as [nb s1] eqn:A1. injection H as <- <-. apply lined_state. unfold c_add in A1.
    match type of A1 with add_in ?l ?t = _ => assert (X : s1 = snd (add_in l t)) by (now rewrite A1) end. subst s1. apply lined_add. now apply lined_end.
  - rewrite cg_sub in H. destruct (c_sub s cur); [discriminate|]. apply obind_some in H. destruct H as [[top s1] [H1 H]]. apply obind_some in H. destruct H as [[a s2] [H2 H]]. injection H as <- <-.
    assert (X : lined (c_state (c_end s2 a (ERet caller [])) top true)); [|intros x; exact (X x)]. apply lined_state. apply lined_end; [|reflexivity].
    eapply (lined_list caller save fuel p IH); [exact L|exact H2|]. destruct (cfind n s) as [[top' [|]]|]; [discriminate|now injection H1 as <- <-|].
    apply some_inj in H1. assert (X : s1 = snd (add_in (Some n) s)) by (now rewrite H1). subst s1. now apply lined_add.
  - cbn [cgather] in H. destruct (c_sub s cur); [discriminate|]. destruct (cfind n s) as [[top' [|]]|]; [discriminate|now injection H as <- <-|].
    destruct (add_in (Some n) s) as [t s1] eqn:A1. injection H as <- <-. assert (X : s1 = snd (add_in (Some n) s)) by (now rewrite A1). subst s1.
    intros x. exact (lined_add (Some n) s Hs x).
Qed.

Record CChain (caller : var) (save : nat -> var) (fuel : nat) (deps0 : list var) (p : list cst) (m : fsm) (s : gst) (sub : nat -> option nat) (g : graph) (r : rst) : Prop := {
  hh_set : csetup caller save fuel p = Some (s, sub);
  hh_gen : generate_states fuel s = Some (g, r);
  hh_arms : write_states fuel g r (g_last s) deps0 [0] [] = Some (f_arms m);
  hh_entry : r_sid r 0 = Some (f_entry m)
}.
Lemma ccompile_chain caller save fuel deps0 p m : ccompile caller save fuel deps0 p = Some m -> exists s sub g r, CChain caller save fuel deps0 p m s sub g r.
Proof.
  unfold ccompile. intros H. apply obind_some in H. destruct H as [[s sub] [H1 H]]. apply obind_some in H. destruct H as [[g r] [H2 H]].
  apply obind_some in H. destruct H as [arms [H3 H]]. apply obind_some in H. destruct H as [e [H4 H]]. injection H as <-. exists s, sub, g, r. constructor; auto.
Qed.

Lemma line_after caller save fuel p s sub g r : forallb line p = true -> csetup caller save fuel p = Some (s, sub) -> generate_states fuel s = Some (g, r) ->
  (forall b, after_of (b_end (g b)) = None) /\ (forall b, g b = g_blk s b).
Proof.
  intros L H G. unfold csetup in H. apply obind_some in H. destruct H as [[c t] [H1 H]]. injection H as <- <-.
  assert (LT : lined t).
  { eapply (lined_list caller save fuel p); [|exact L|exact H1|]; [apply Forall_forall; intros x _; apply lined_ok|].
    intros b. unfold cgst0, gst0, set_state, gset. cbn. destruct (Nat.eqb b 0); reflexivity. }
  set (s := upd_blk (c_g t) _) in *.
  assert (LS : forall b, after_of (b_end (g_blk s b)) = None).
  { intros b. specialize (LT b). cbn. destruct (b_end (g_blk (c_g t) b)); (exact LT || reflexivity). }
  assert (P : forall bs ch, exists ch', forall r1 unr g', prevent r1 unr bs (g_blk s) ch = Some g' -> g' = (g_blk s, ch')).
  { induction bs as [|b bs IH]; intros ch; [exists ch; intros r1 unr g' [= <-]; reflexivity|]. destruct (IH ch) as [ch' IH']. exists ch'. intros r1 unr g' X. cbn [prevent] in X.
    destruct (unr b); [now apply IH' in X|]. specialize (LS b). destruct (b_end (g_blk s b)); try (now apply IH' in X). discriminate. }
  assert (E : forall b, g b = g_blk s b).
  { unfold generate_states in G. apply obind_some in G. destruct G as [r1 [_ G]]. apply obind_some in G. destruct G as [[g2 ch] [H2 G]].
    destruct (P (seq 0 (g_next s)) false) as [ch' P']. apply P' in H2. injection H2 as -> ->.
    destruct ch'; [apply obind_some in G; destruct G as [r2 [_ G]]|]; injection G as <- <-; reflexivity. }
  split; [|exact E]. intros b. rewrite E. apply LS.
Qed.

Lemma line_arm caller save fuel deps0 p m s sub g r : forallb line p = true -> CChain caller save fuel deps0 p m s sub g r ->
  forall Q D i code, agree Q D deps0 -> In (i, code) (f_arms m) ->
    exists b, r_sid r b = Some i /\ walk g (Jmp fuel g r (g_last s)) Q b (D, i) (vexecs Q code (D, i)).
Proof.
  intros L CH Q D i code A Hc. destruct (line_after _ _ _ _ _ _ _ _ L (hh_set _ _ _ _ _ _ _ _ _ _ CH) (hh_gen _ _ _ _ _ _ _ _ _ _ CH)) as [AF _].
  destruct (states_arms g r (g_last s) deps0 _ _ _ _ (hh_arms _ _ _ _ _ _ _ _ _ _ CH)) as [dn [A1 [A2 [A3 [A4 A5]]]]].
  destruct (A5 i code Hc) as [b [f' [d [ps [B1 [B2 [B3 [B4 _]]]]]]]]. exists b. split; [exact B2|]. set (J := Jmp fuel g r (g_last s)).
  assert (ffJ : forall x j, ff_index f' g r (g_last s) x = Some j -> J x j) by (intros x j H; eapply ff_index_fuel; [exact H|exact B1]).
  assert (NB : forall b x, In x (branches (b_end (g b))) -> False).
  { intros b0 x Hx. specialize (AF b0). destruct (b_end (g b0)); try discriminate AF; destruct Hx. }
  destruct (emit_sound g r J (ff_index f' g r (g_last s)) ffJ (fun _ => True) (fun _ _ _ _ _ => I) (fun _ _ => False)) with (f := f') (entry := true) (stop := @None nat) (b := b) (deps := deps0) (c := code) (d := d) (q := ps)
    as [_ KK].
  - intros x y Hy. exact (NB _ _ Hy).
  - intros x a Ha. rewrite AF in Ha. discriminate.
  - intros x a y z Ha. rewrite AF in Ha. discriminate.
  - intros x a y a' Ha. rewrite AF in Ha. discriminate.
  - intros x _. unfold join_ok. specialize (AF x). destruct (b_end (g x)); try exact I; discriminate AF.
  - exact B4.
  - exact I.
  - exact I.
  - now right.
  - destruct (KK Q D i A) as [o [Ro [Oo|[Oo _]]]]; subst o.
    + destruct (run_none_walk g J Q b (D, i) _ Ro) as [s' [[= <-] Wk]]. exact Wk.
    + destruct (run_none_walk g J Q b (D, i) _ Ro) as [s' [X _]]. discriminate.
Qed.
